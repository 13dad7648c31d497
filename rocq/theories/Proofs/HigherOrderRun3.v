(** Third-order perturbation: the arrays computed. *)
From Coq Require Import String Reals List Arith Lia Lra.
From Verif.Base Require Import Prelude Ext Sums Arrays.
From Verif.Spec Require Import LinearAlgebra Perturbation Tensor HigherOrder.
From Verif.Model Require Import DecisionRule Perturbation.
From Verif.Base Require Import Nda.
From Verif.Model Require Import Tensor MatrixEquations Taylor HigherOrder.
From Verif.Proofs Require Import MatrixAlgebra PerturbationProofs PerturbationFinal TensorProofs MatrixEquationsProofs Jets HigherOrderAlgebra HigherOrderOps HigherOrderProofs.
Import ListNotations.
Open Scope R_scope.

Section Run.
  Variable solve : nat -> matR -> (nat -> R) -> res (nat -> R).
  Variables n_s n_x n_e : nat.
  Variables f1 g1 f2 g2 f3 g3 sigma X_s : nda.
  Let nv := (n_s + n_x)%nat.
  Let N := (nv + nv)%nat.
  Let G := (nv + n_e)%nat.
  Hypothesis Hf1 : shape f1 = [n_x; N].
  Hypothesis Hg1 : shape g1 = [n_s; G].
  Hypothesis Hf2 : shape f2 = [n_x; N; N].
  Hypothesis Hg2 : shape g2 = [n_s; G; G].
  Hypothesis Hf3 : shape f3 = [n_x; N; N; N].
  Hypothesis Hg3 : shape g3 = [n_s; G; G; G].
  Hypothesis Hsig : shape sigma = [n_e; n_e].
  Hypothesis HX : shape X_s = [n_x; n_s].

  Variables (Xss : nat -> nat -> nat -> R) (Xtt : nat -> R).
  Let X := c_X X_s.
  Let P := c_P n_s n_x g1 X_s.
  Let V := c_V n_s n_x g1 X_s.
  Let K2 := c_K2 n_s n_x g2 X_s.
  Let fX := c_fX n_s n_x f1.
  Let L := c_L n_s n_x f1 X_s.
  Let gx := c_gx n_s g1.
  Let ge := c_ge n_s n_x g1.

  Definition d_V23 (i j k : nat) := K2 i j k + rsum n_x (fun c => gx i c * Xss c j k).
  (** numpy.dot of X_s and V2_3: the middle axis. *)
  Definition d_XV2 (i j k : nat) := rsum n_s (fun l => X i l * d_V23 j l k).
  Definition d_V24 (i j k : nat) := d_XV2 i j k + rsum n_s (fun a => rsum n_s (fun b => Xss i a b * P a j * P b k)).
  Definition d_V2 := above n_s (fun _ _ _ => 0) (above n_x Xss (above n_s d_V23 d_V24)).
  Definition d_K3 (i j k l : nat) :=
    at_ g3 [i; j; k; l] + 3 * rsum n_x (fun a => at_ g3 [i; j; k; (n_s + a)%nat] * X a l)
    + 3 * rsum n_x (fun a => rsum n_x (fun b => at_ g3 [i; j; (n_s + a)%nat; (n_s + b)%nat] * X a k * X b l))
    + 2 * rsum n_x (fun a => at_ g2 [i; j; (n_s + a)%nat] * Xss a k l)
    + (3 * rsum n_x (fun a => rsum n_x (fun b => at_ g2 [i; (n_s + a)%nat; (n_s + b)%nat] * Xss a j k * X b l))
       + rsum n_x (fun a => rsum n_x (fun b => rsum n_x (fun c => at_ g3 [i; (n_s + a)%nat; (n_s + b)%nat; (n_s + c)%nat] * X a j * X b k * X c l)))).
  Definition d_D3 (i j k l : nat) :=
    rsum N (fun a => rsum N (fun b => rsum N (fun c => at_ f3 [i; a; b; c] * V a j * V b k * V c l)))
    + 3 * rsum N (fun a => rsum N (fun b => at_ f2 [i; a; b] * d_V2 a j k * V b l))
    + rsum n_s (fun a => L i a * d_K3 a j k l)
    + rsum n_x (fun c => fX i c * (3 * rsum n_s (fun a => rsum n_s (fun b => Xss c a b * P a j * d_V23 b k l)))).

  Tactic Notation "stg" constr(lem) ident(T) ident(HT) := let E := fresh "E" in destruct lem as (T & E & HT); rewrite E; cbn [bind]; clear E.

  Variable so : second.
  Hypothesis HP : is2 (so_V13 so) n_s n_s P.
  Hypothesis HV : is2 (so_V1 so) N n_s V.
  Hypothesis HK2 : is3 (so_K2 so) n_s n_s n_s K2.
  Hypothesis HL : is2 (so_L so) n_x n_s L.
  Hypothesis HXss : is3 (so_Xss so) n_x n_s n_s Xss.
  Hypothesis HXtt : is1 (so_Xtt so) n_x Xtt.

  Lemma third_states_run : exists B D,
      third_states solve n_s n_x f1 g1 f2 g2 f3 g3 X_s so = solve_sylvester solve (to_mat (so_A so)) (to_mat B) (to_mat (so_V13 so)) D /\
      is2 B n_x n_x fX /\ is4 D n_x n_s n_s n_s d_D3.
  Proof.
    unfold third_states. cbv zeta. fold nv.
    pose proof (is2_self _ _ _ Hf1) as F1. pose proof (is2_self _ _ _ Hg1) as G1.
    pose proof (is3_self _ _ _ _ Hf2) as F2. pose proof (is3_self _ _ _ _ Hg2) as G2.
    pose proof (is4_self _ _ _ _ _ Hf3) as F3. pose proof (is4_self _ _ _ _ _ Hg3) as G3.
    pose proof (is2_self _ _ _ HX) as XS. change (is2 X_s n_x n_s X) in XS.
    stg (slice2 f1 _ _ _ all_ (from_ (nv + n_s)) 0%nat (nv + n_s)%nat n_x n_x F1 ltac:(rd) ltac:(unfold N, nv in *; rd)) f_xnext HfX. change (is2 f_xnext n_x n_x fX) in HfX.
    stg (slice2 g1 _ _ _ all_ (from_to n_s nv) 0%nat n_s n_s n_x G1 ltac:(rd) ltac:(unfold G, nv in *; rd)) g_x Hgx. change (is2 g_x n_s n_x gx) in Hgx.
    stg (slice3 g2 _ _ _ _ all_ (to_ n_s) (from_to n_s nv) 0%nat 0%nat n_s n_s n_s n_x G2 ltac:(rd) ltac:(unfold G, nv in *; rd) ltac:(unfold G, nv in *; rd)) g_sx Hgsx.
    stg (slice3 g2 _ _ _ _ all_ (from_to n_s nv) (from_to n_s nv) 0%nat n_s n_s n_s n_x n_x G2 ltac:(rd) ltac:(unfold G, nv in *; rd) ltac:(unfold G, nv in *; rd)) g_xx Hgxx.
    stg (slice4 g3 _ _ _ _ _ all_ (to_ n_s) (to_ n_s) (to_ n_s) 0%nat 0%nat 0%nat 0%nat n_s n_s n_s n_s G3 ltac:(rd) ltac:(unfold G, nv in *; rd) ltac:(unfold G, nv in *; rd) ltac:(unfold G, nv in *; rd)) g_sss Hgsss.
    stg (slice4 g3 _ _ _ _ _ all_ (to_ n_s) (to_ n_s) (from_to n_s nv) 0%nat 0%nat 0%nat n_s n_s n_s n_s n_x G3 ltac:(rd) ltac:(unfold G, nv in *; rd) ltac:(unfold G, nv in *; rd) ltac:(unfold G, nv in *; rd)) g_ssx Hgssx.
    stg (slice4 g3 _ _ _ _ _ all_ (to_ n_s) (from_to n_s nv) (from_to n_s nv) 0%nat 0%nat n_s n_s n_s n_s n_x n_x G3 ltac:(rd) ltac:(unfold G, nv in *; rd) ltac:(unfold G, nv in *; rd) ltac:(unfold G, nv in *; rd)) g_sxx Hgsxx.
    stg (slice4 g3 _ _ _ _ _ all_ (from_to n_s nv) (from_to n_s nv) (from_to n_s nv) 0%nat n_s n_s n_s n_s n_x n_x n_x G3 ltac:(rd) ltac:(unfold G, nv in *; rd) ltac:(unfold G, nv in *; rd) ltac:(unfold G, nv in *; rd)) g_xxx Hgxxx.
    cbn [Nat.add] in *.
    stg (sdot23 _ _ _ _ _ _ _ _ Hgx HXss) gxXss HgxXss.
    stg (add3 _ _ _ _ _ _ _ HK2 HgxXss) V2_3 HV23. change (is3 V2_3 n_s n_s n_s d_V23) in HV23.
    stg (dot23 _ _ _ _ _ _ _ _ XS HV23) XV2 HXV2. change (is3 XV2 n_x n_s n_s d_XV2) in HXV2.
    stg (mdot322 _ _ _ _ _ _ _ _ _ _ _ HXss HP HP) XssVV HXVV.
    stg (add3 _ _ _ _ _ _ _ HXV2 HXVV) V2_4 HV24. change (is3 V2_4 n_x n_s n_s d_V24) in HV24.
    destruct (HigherOrderOps.stack3 V2_3 [V2_4] V2_4 _ _ _ _ _ _ ltac:(discriminate) eq_refl HV23 HV24) as (st1 & E1 & H1).
    destruct (HigherOrderOps.stack3 (so_Xss so) [V2_3; V2_4] _ _ _ _ _ _ _ ltac:(discriminate) E1 HXss H1) as (st2 & E2 & H2).
    destruct (HigherOrderOps.stack3 (nd_zeros [n_s; n_s; n_s]) [so_Xss so; V2_3; V2_4] _ _ _ _ _ _ _ ltac:(discriminate) E2 (zeros3 n_s n_s n_s) H2) as (V2 & E3 & HV2).
    rewrite E3. cbn [bind]. clear E1 E2 E3 H1 H2.
    assert (HN : (n_s + (n_x + (n_s + n_x)))%nat = N) by (unfold N, nv; lia). rewrite HN in HV2. change (is3 V2 N n_s n_s d_V2) in HV2.
    stg (sdot42 _ _ _ _ _ _ _ _ _ Hgssx XS) a1 Ha1.
    stg (mdot422 _ _ _ _ _ _ _ _ _ _ _ _ Hgsxx XS XS) a2 Ha2.
    stg (sdot33 _ _ _ _ _ _ _ _ _ Hgsx HXss) a3 Ha3.
    stg (add4 _ _ _ _ _ _ _ _ Hgsss (scale4 3 _ _ _ _ _ _ Ha1)) b1 Hb1.
    stg (add4 _ _ _ _ _ _ _ _ Hb1 (scale4 3 _ _ _ _ _ _ Ha2)) b2 Hb2.
    stg (add4 _ _ _ _ _ _ _ _ Hb2 (scale4 2 _ _ _ _ _ _ Ha3)) b3 Hb3.
    stg (mdot332 _ _ _ _ _ _ _ _ _ _ _ _ Hgxx HXss XS) a4 Ha4.
    stg (mdot4222 _ _ _ _ _ _ _ _ _ _ _ _ _ _ _ Hgxxx XS XS XS) a5 Ha5.
    stg (add4 _ _ _ _ _ _ _ _ (scale4 3 _ _ _ _ _ _ Ha4) Ha5) b4 Hb4.
    stg (add4 _ _ _ _ _ _ _ _ Hb3 Hb4) K3 HK3. change (is4 K3 n_s n_s n_s n_s d_K3) in HK3.
    stg (mdot323 _ _ _ _ _ _ _ _ _ _ _ _ HXss HP HV23) l3 Hl3.
    stg (mdot4222 _ _ _ _ _ _ _ _ _ _ _ _ _ _ _ F3 HV HV HV) d1 Hd1.
    stg (mdot332 _ _ _ _ _ _ _ _ _ _ _ _ F2 HV2 HV) d2 Hd2.
    stg (sdot24 _ _ _ _ _ _ _ _ _ HL HK3) d3 Hd3.
    stg (add4 _ _ _ _ _ _ _ _ Hd1 (scale4 3 _ _ _ _ _ _ Hd2)) e1 He1.
    stg (add4 _ _ _ _ _ _ _ _ He1 Hd3) e2 He2.
    stg (sdot24 _ _ _ _ _ _ _ _ _ HfX (scale4 3 _ _ _ _ _ _ Hl3)) d4 Hd4.
    stg (add4 _ _ _ _ _ _ _ _ He2 Hd4) D HD.
    exists f_xnext, D. split; [reflexivity|]. split; [exact HfX|exact HD].
  Qed.

  (** Risk. *)
  Variable Xsss : nat -> nat -> nat -> nat -> R.
  Definition r_Wl := above n_s ge (fun i j => rsum n_s (fun k => X i k * ge k j)).
  Definition r_Vsl (i j k : nat) := at_ g2 [i; j; (nv + k)%nat]
    + rsum n_x (fun a => rsum n_e (fun b => at_ g2 [i; (n_s + a)%nat; (nv + b)%nat] * X a j * eye b k)).
  Definition r_Wsl := above n_s r_Vsl (fun i j k => rsum n_s (fun a => rsum n_s (fun b => Xss i a b * P a j * ge b k)) + rsum n_s (fun l => X i l * r_Vsl l j k)).
  Definition r_gee (i j k : nat) := at_ g2 [i; (nv + j)%nat; (nv + k)%nat].
  Definition r_SW := above n_s r_gee (fun i j k => rsum n_s (fun a => rsum n_s (fun b => Xss i a b * ge a j * ge b k)) + rsum n_s (fun l => X i l * r_gee l j k)).
  Definition r_gX (i : nat) := rsum n_x (fun k => gx i k * Xtt k).
  Definition r_DW := above n_x Xtt (above n_s r_gX (fun i => rsum n_s (fun k => X i k * r_gX k) + Xtt i)).
  Definition r_Kee (i j k l : nat) :=
    rsum N (fun a => rsum nv (fun b => rsum nv (fun c => at_ f3 [i; a; (nv + b)%nat; (nv + c)%nat] * V a j * r_Wl b k * r_Wl c l)))
    + 2 * rsum nv (fun a => rsum nv (fun b => at_ f2 [i; (nv + a)%nat; (nv + b)%nat] * r_Wsl a j k * r_Wl b l))
    + rsum N (fun a => rsum nv (fun b => at_ f2 [i; a; (nv + b)%nat] * V a j * r_SW b k l)).
  Definition r_K (i j : nat) :=
    rsum n_e (fun k => rsum n_e (fun l => r_Kee i j k l * at_ sigma [k; l]))
    + rsum N (fun a => rsum (n_x + (n_s + n_x)) (fun b => at_ f2 [i; a; (n_s + b)%nat] * V a j * r_DW b)).
  Definition r_L (i j : nat) :=
    rsum n_x (fun a => at_ g2 [i; j; (n_s + a)%nat] * Xtt a)
    + rsum n_x (fun a => rsum n_x (fun b => at_ g2 [i; (n_s + a)%nat; (n_s + b)%nat] * X a j * Xtt b))
    + rsum n_e (fun k => rsum n_e (fun l => (at_ g3 [i; j; (nv + k)%nat; (nv + l)%nat]
        + rsum n_x (fun a => rsum n_e (fun b => rsum n_e (fun c => at_ g3 [i; (n_s + a)%nat; (nv + b)%nat; (nv + c)%nat] * X a j * eye b k * eye c l))))
        * at_ sigma [k; l])).
  Definition r_M (i j : nat) :=
    rsum n_e (fun k => rsum n_e (fun l => (rsum n_s (fun a => rsum n_s (fun b => rsum n_s (fun c => Xsss i a b c * P a j * ge b k * ge c l)))
        + 2 * rsum n_s (fun a => rsum n_s (fun b => Xss i a b * r_Vsl a j k * ge b l))) * at_ sigma [k; l]))
    + rsum n_s (fun a => rsum n_s (fun b => Xss i a b * P a j * (rsum n_e (fun k => rsum n_e (fun l => r_gee b k l * at_ sigma [k; l])) + r_gX b))).
  Definition r_D (i j : nat) := r_K i j + rsum n_s (fun k => L i k * r_L k j) + rsum n_x (fun k => fX i k * r_M k j).

  Variable X_sss : nda.
  Hypothesis HX3 : is4 X_sss n_x n_s n_s n_s Xsss.

  Lemma third_risk_run : exists B D,
      third_risk solve n_s n_x n_e f1 g1 f2 g2 f3 g3 sigma X_s so X_sss = solve_sylvester solve (to_mat (so_A so)) (to_mat B) (to_mat (so_V13 so)) D /\
      is2 B n_x n_x fX /\ is2 D n_x n_s r_D.
  Proof.
    unfold third_risk. cbv zeta. fold nv.
    pose proof (is2_self _ _ _ Hf1) as F1. pose proof (is2_self _ _ _ Hg1) as G1.
    pose proof (is3_self _ _ _ _ Hf2) as F2. pose proof (is3_self _ _ _ _ Hg2) as G2.
    pose proof (is4_self _ _ _ _ _ Hf3) as F3. pose proof (is4_self _ _ _ _ _ Hg3) as G3.
    pose proof (is2_self _ _ _ Hsig) as SG.
    pose proof (is2_self _ _ _ HX) as XS. change (is2 X_s n_x n_s X) in XS.
    stg (slice2 f1 _ _ _ all_ (from_ (nv + n_s)) 0%nat (nv + n_s)%nat n_x n_x F1 ltac:(rd) ltac:(unfold N, nv in *; rd)) f_xnext HfX. change (is2 f_xnext n_x n_x fX) in HfX.
    stg (slice2 g1 _ _ _ all_ (from_to n_s nv) 0%nat n_s n_s n_x G1 ltac:(rd) ltac:(unfold G, nv in *; rd)) g_x Hgx. change (is2 g_x n_s n_x gx) in Hgx.
    stg (slice2 g1 _ _ _ all_ (from_ nv) 0%nat nv n_s n_e G1 ltac:(rd) ltac:(unfold G, nv in *; rd)) g_e Hge. change (is2 g_e n_s n_e ge) in Hge.
    stg (slice3 g2 _ _ _ _ all_ (to_ n_s) (from_to n_s nv) 0%nat 0%nat n_s n_s n_s n_x G2 ltac:(rd) ltac:(unfold G, nv in *; rd) ltac:(unfold G, nv in *; rd)) g_sx Hgsx.
    stg (slice3 g2 _ _ _ _ all_ (from_to n_s nv) (from_to n_s nv) 0%nat n_s n_s n_s n_x n_x G2 ltac:(rd) ltac:(unfold G, nv in *; rd) ltac:(unfold G, nv in *; rd)) g_xx Hgxx.
    stg (slice3 g2 _ _ _ _ all_ (from_ nv) (from_ nv) 0%nat nv nv n_s n_e n_e G2 ltac:(rd) ltac:(unfold G, nv in *; rd) ltac:(unfold G, nv in *; rd)) g_ee Hgee.
    stg (slice3 g2 _ _ _ _ all_ (to_ n_s) (from_ nv) 0%nat 0%nat nv n_s n_s n_e G2 ltac:(rd) ltac:(unfold G, nv in *; rd) ltac:(unfold G, nv in *; rd)) g_se Hgse.
    stg (slice3 g2 _ _ _ _ all_ (from_to n_s nv) (from_ nv) 0%nat n_s nv n_s n_x n_e G2 ltac:(rd) ltac:(unfold G, nv in *; rd) ltac:(unfold G, nv in *; rd)) g_xe Hgxe.
    stg (slice4 g3 _ _ _ _ _ all_ (to_ n_s) (from_ nv) (from_ nv) 0%nat 0%nat nv nv n_s n_s n_e n_e G3 ltac:(rd) ltac:(unfold G, nv in *; rd) ltac:(unfold G, nv in *; rd) ltac:(unfold G, nv in *; rd)) g_see Hgsee.
    stg (slice4 g3 _ _ _ _ _ all_ (from_to n_s nv) (from_ nv) (from_ nv) 0%nat n_s nv nv n_s n_x n_e n_e G3 ltac:(rd) ltac:(unfold G, nv in *; rd) ltac:(unfold G, nv in *; rd) ltac:(unfold G, nv in *; rd)) g_xee Hgxee.
    cbn [Nat.add] in *. change (is3 g_ee n_s n_e n_e r_gee) in Hgee.
    stg (dot22 _ _ _ _ _ _ _ XS Hge) Xge HXge.
    destruct (stack2 g_e [Xge] Xge _ _ _ _ _ ltac:(discriminate) eq_refl Hge HXge) as (W_l & EW & HWl). rewrite EW. cbn [bind]. clear EW.
    fold nv in HWl. change (is2 W_l nv n_e r_Wl) in HWl.
    stg (mdot322 _ _ _ _ _ _ _ _ _ _ _ Hgxe XS (eye2 n_e)) a1 Ha1.
    stg (add3 _ _ _ _ _ _ _ Hgse Ha1) V_sl HVsl. change (is3 V_sl n_s n_s n_e r_Vsl) in HVsl.
    stg (mdot322 _ _ _ _ _ _ _ _ _ _ _ HXss HP Hge) a2 Ha2.
    stg (sdot23 _ _ _ _ _ _ _ _ XS HVsl) a3 Ha3.
    stg (add3 _ _ _ _ _ _ _ Ha2 Ha3) a4 Ha4.
    destruct (HigherOrderOps.stack3 V_sl [a4] a4 _ _ _ _ _ _ ltac:(discriminate) eq_refl HVsl Ha4) as (W_sl & EW & HWsl). rewrite EW. cbn [bind]. clear EW.
    fold nv in HWsl. change (is3 W_sl nv n_s n_e r_Wsl) in HWsl.
    stg (slice4 f3 _ _ _ _ _ all_ all_ (from_ nv) (from_ nv) 0%nat 0%nat nv nv n_x N nv nv F3 ltac:(rd) ltac:(rd) ltac:(unfold N in *; rd) ltac:(unfold N in *; rd)) f3nn Hf3nn.
    stg (slice3 f2 _ _ _ _ all_ (from_ nv) (from_ nv) 0%nat nv nv n_x nv nv F2 ltac:(rd) ltac:(unfold N in *; rd) ltac:(unfold N in *; rd)) f2nn Hf2nn.
    cbn [Nat.add] in *.
    stg (mdot4222 _ _ _ _ _ _ _ _ _ _ _ _ _ _ _ Hf3nn HV HWl HWl) k1 Hk1.
    stg (mdot332 _ _ _ _ _ _ _ _ _ _ _ _ Hf2nn HWsl HWl) k2 Hk2.
    stg (add4 _ _ _ _ _ _ _ _ Hk1 (scale4 2 _ _ _ _ _ _ Hk2)) k3 Hk3.
    stg (mdot322 _ _ _ _ _ _ _ _ _ _ _ HXss Hge Hge) s1 Hs1.
    stg (sdot23 _ _ _ _ _ _ _ _ XS Hgee) s2 Hs2.
    stg (add3 _ _ _ _ _ _ _ Hs1 Hs2) s3 Hs3.
    destruct (HigherOrderOps.stack3 g_ee [s3] s3 _ _ _ _ _ _ ltac:(discriminate) eq_refl Hgee Hs3) as (SW_ll & EW & HSW). rewrite EW. cbn [bind]. clear EW.
    fold nv in HSW. change (is3 SW_ll nv n_e n_e r_SW) in HSW.
    stg (dot21 _ _ _ _ _ _ Hgx HXtt) t1 Ht1. change (is1 t1 n_s r_gX) in Ht1.
    stg (sdot21 _ _ _ _ _ _ Hgx HXtt) t2 Ht2. change (is1 t2 n_s r_gX) in Ht2.
    stg (dot21 _ _ _ _ _ _ XS Ht2) t3 Ht3.
    stg (add1 _ _ _ _ _ Ht3 HXtt) t4 Ht4.
    destruct (stack1 t1 [t4] t4 _ _ _ _ ltac:(discriminate) eq_refl Ht1 Ht4) as (st1 & E1 & H1).
    destruct (stack1 (so_Xtt so) [t1; t4] _ _ _ _ _ ltac:(discriminate) E1 HXtt H1) as (DW_ll & E2 & HDW). rewrite E2. cbn [bind]. clear E1 E2 H1.
    change (is1 DW_ll (n_x + (n_s + n_x)) r_DW) in HDW.
    stg (slice3 f2 _ _ _ _ all_ all_ (from_ nv) 0%nat 0%nat nv n_x N nv F2 ltac:(rd) ltac:(rd) ltac:(unfold N in *; rd)) f2n Hf2n.
    cbn [Nat.add] in *.
    stg (mdot323 _ _ _ _ _ _ _ _ _ _ _ _ Hf2n HV HSW) k4 Hk4.
    stg (add4 _ _ _ _ _ _ _ _ Hk3 Hk4) K_ee HKee. change (is4 K_ee n_x n_s n_e n_e r_Kee) in HKee.
    stg (against4 _ _ _ _ _ _ _ HKee SG) q1 Hq1.
    stg (slice3 f2 _ _ _ _ all_ all_ (from_ n_s) 0%nat 0%nat n_s n_x N (n_x + (n_s + n_x))%nat F2 ltac:(rd) ltac:(rd) ltac:(unfold N, nv in *; rd)) f2s Hf2s.
    cbn [Nat.add] in *.
    stg (mdot321 _ _ _ _ _ _ _ _ _ _ Hf2s HV HDW) q2 Hq2.
    stg (add2 _ _ _ _ _ _ Hq1 Hq2) K_ HK_. change (is2 K_ n_x n_s r_K) in HK_.
    stg (sdot31 _ _ _ _ _ _ _ Hgsx HXtt) m1 Hm1.
    stg (mdot321 _ _ _ _ _ _ _ _ _ _ Hgxx XS HXtt) m2 Hm2.
    stg (add2 _ _ _ _ _ _ Hm1 Hm2) m3 Hm3.
    stg (mdot4222 _ _ _ _ _ _ _ _ _ _ _ _ _ _ _ Hgxee XS (eye2 n_e) (eye2 n_e)) m4 Hm4.
    stg (add4 _ _ _ _ _ _ _ _ Hgsee Hm4) m5 Hm5.
    stg (against4 _ _ _ _ _ _ _ Hm5 SG) m6 Hm6.
    stg (add2 _ _ _ _ _ _ Hm3 Hm6) L' HL'. change (is2 L' n_s n_s r_L) in HL'.
    stg (mdot4222 _ _ _ _ _ _ _ _ _ _ _ _ _ _ _ HX3 HP Hge Hge) n1 Hn1.
    stg (mdot332 _ _ _ _ _ _ _ _ _ _ _ _ HXss HVsl Hge) n2 Hn2.
    stg (add4 _ _ _ _ _ _ _ _ Hn1 (scale4 2 _ _ _ _ _ _ Hn2)) n3 Hn3.
    stg (against4 _ _ _ _ _ _ _ Hn3 SG) n4 Hn4.
    stg (against3 _ _ _ _ _ _ Hgee SG) n5 Hn5.
    stg (add1 _ _ _ _ _ Hn5 Ht2) n6 Hn6.
    stg (mdot321 _ _ _ _ _ _ _ _ _ _ HXss HP Hn6) n7 Hn7.
    stg (add2 _ _ _ _ _ _ Hn4 Hn7) M' HM'. change (is2 M' n_x n_s r_M) in HM'.
    stg (dot22 _ _ _ _ _ _ _ HL HL') u1 Hu1.
    stg (dot22 _ _ _ _ _ _ _ HfX HM') u2 Hu2.
    stg (add2 _ _ _ _ _ _ HK_ Hu1) u3 Hu3.
    stg (add2 _ _ _ _ _ _ Hu3 Hu2) D HD.
    exists f_xnext, D. split; [reflexivity|]. split; [exact HfX|exact HD].
  Qed.
End Run.
