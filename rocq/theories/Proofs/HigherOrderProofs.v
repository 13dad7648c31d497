(** Second-order perturbation: from the arrays computed to the conditions. *)
From Coq Require Import String Reals List Arith Lia Lra.
From Verif.Base Require Import Prelude Ext Sums Arrays.
From Verif.Spec Require Import LinearAlgebra Perturbation Tensor HigherOrder.
From Verif.Model Require Import DecisionRule Perturbation.
From Verif.Base Require Import Nda.
From Verif.Model Require Import Tensor MatrixEquations Taylor HigherOrder.
From Verif.Proofs Require Import MatrixAlgebra PerturbationProofs PerturbationFinal TensorProofs MatrixEquationsProofs Jets HigherOrderAlgebra HigherOrderOps.
Import ListNotations.
Open Scope R_scope.

Ltac rd := unfold reads, all_, to_, from_to, from_, seg; cbn; lia.

(** ** Contractions *)

Lemma bil_of_lin : forall n m p (A : nat -> nat -> R) X u v i,
    bil n m (fun i j k => rsum p (fun c => A i c * X c j k)) u v i = lin p A (bil n m X u v) i.
Proof.
  intros n m p A X u v i. unfold bil, lin.
  rewrite (rsum_ext n _ (fun j => rsum m (fun k => rsum p (fun c => A i c * (X c j k * u j * v k))))).
  - rewrite (rsum_ext n _ (fun j => rsum p (fun c => rsum m (fun k => A i c * (X c j k * u j * v k))))) by (intros; apply rsum_swap).
    rewrite rsum_swap. apply rsum_ext. intros c _. rewrite <- rsum_scal. apply rsum_ext. intros j _. apply rsum_scal.
  - intros j _. apply rsum_ext. intros k _. rewrite <- !rsum_scal_r. apply rsum_ext. intros. ring.
Qed.
Lemma bil_comp_l : forall n m p (X : nat -> nat -> nat -> R) (P : nat -> nat -> R) u v i,
    bil n m (fun i j k => rsum p (fun a => X i a k * P a j)) u v i = bil p m X (lin n P u) v i.
Proof.
  intros n m p X P u v i. unfold bil, lin.
  rewrite (rsum_ext n _ (fun j => rsum p (fun a => rsum m (fun k => X i a k * P a j * u j * v k)))).
  - rewrite rsum_swap. apply rsum_ext. intros a _. rewrite rsum_swap. apply rsum_ext. intros k _.
    rewrite <- rsum_scal, <- rsum_scal_r. apply rsum_ext. intros. ring.
  - intros j _. rewrite rsum_swap. apply rsum_ext. intros k _. rewrite <- !rsum_scal_r. reflexivity.
Qed.
Lemma bil_comp_r : forall n m p (X : nat -> nat -> nat -> R) (P : nat -> nat -> R) u v i,
    bil n m (fun i j k => rsum p (fun a => X i j a * P a k)) u v i = bil n p X u (lin m P v) i.
Proof.
  intros n m p X P u v i. unfold bil, lin. apply rsum_ext. intros j _.
  rewrite (rsum_ext m _ (fun k => rsum p (fun a => X i j a * P a k * u j * v k))) by (intros; rewrite <- !rsum_scal_r; reflexivity).
  rewrite rsum_swap. apply rsum_ext. intros a _. rewrite <- rsum_scal. apply rsum_ext. intros. ring.
Qed.
Lemma bil_comp : forall n m p q (X : nat -> nat -> nat -> R) (P Q : nat -> nat -> R) u v i,
    bil n m (fun i j k => rsum p (fun a => rsum q (fun b => X i a b * P a j * Q b k))) u v i = bil p q X (lin n P u) (lin m Q v) i.
Proof.
  intros n m p q X P Q u v i.
  rewrite <- bil_comp_l, <- bil_comp_r. apply bil_ext; [|reflexivity|reflexivity]. intros j k _ _.
  rewrite rsum_swap. apply rsum_ext. intros b _. rewrite <- rsum_scal_r. apply rsum_ext. intros. ring.
Qed.
Lemma lin_comp : forall n p (A B : nat -> nat -> R) u i,
    lin n (fun i j => rsum p (fun c => A i c * B c j)) u i = lin p A (lin n B u) i.
Proof.
  intros n p A B u i. unfold lin.
  rewrite (rsum_ext n _ (fun j => rsum p (fun c => A i c * (B c j * u j)))) by (intros; rewrite <- rsum_scal_r; apply rsum_ext; intros; ring).
  rewrite rsum_swap. apply rsum_ext. intros c _. apply rsum_scal.
Qed.
Lemma lin_add_coef : forall n (A B : nat -> nat -> R) u i, lin n (fun i j => A i j + B i j) u i = lin n A u i + lin n B u i.
Proof. intros. unfold lin. rewrite <- rsum_plus. apply rsum_ext. intros. ring. Qed.
Lemma bil_add_coef : forall n m (A B : nat -> nat -> nat -> R) u v i, bil n m (fun i j k => A i j k + B i j k) u v i = bil n m A u v i + bil n m B u v i.
Proof. intros. unfold bil. rewrite <- rsum_plus. apply rsum_ext. intros. rewrite <- rsum_plus. apply rsum_ext. intros. ring. Qed.
Lemma bil_scal_coef : forall n m c (A : nat -> nat -> nat -> R) u v i, bil n m (fun i j k => c * A i j k) u v i = c * bil n m A u v i.
Proof. intros. unfold bil. rewrite <- rsum_scal. apply rsum_ext. intros. rewrite <- rsum_scal. apply rsum_ext. intros. ring. Qed.
Lemma bil_zero_coef : forall n m (A : nat -> nat -> nat -> R) u v i, (forall j k, (j < n)%nat -> (k < m)%nat -> A i j k = 0) -> bil n m A u v i = 0.
Proof. intros n m A u v i H. apply rsum_0. intros j Hj. apply rsum_0. intros k Hk. rewrite H by assumption. ring. Qed.
Lemma lin_eye : forall n u i, (i < n)%nat -> lin n eye u i = u i.
Proof.
  intros n u i Hi. unfold lin. rewrite (rsum_single n i) by (exact Hi || (intros j _ Hne; unfold eye; destruct (Nat.eqb_spec i j); [congruence|ring])).
  unfold eye. rewrite Nat.eqb_refl. ring.
Qed.
Lemma lin_above : forall n m F G u a, (a < n + m)%nat -> forall q, lin q (above n F G) u a = glue n (lin q F u) (lin q G u) a.
Proof. intros n m F G u a Ha q. unfold lin, above, glue. destruct (Nat.ltb a n); reflexivity. Qed.
Lemma bil_glue_tail : forall n m A u v i, bil (n + m) (n + m) A (glue n zero u) (glue n zero v) i = bil m m (fun i a b => A i (n + a)%nat (n + b)%nat) u v i.
Proof.
  intros n m A u v i. unfold bil. rewrite rsum_split. rewrite rsum_0.
  - rewrite Rplus_0_l. apply rsum_ext. intros a Ha. rewrite rsum_split, rsum_0.
    + rewrite Rplus_0_l. apply rsum_ext. intros b Hb. rewrite !glue_ge. reflexivity.
    + intros b Hb. rewrite (glue_lt n zero v) by exact Hb. unfold zero. ring.
  - intros a Ha. apply rsum_0. intros b Hb. rewrite (glue_lt n zero u) by exact Ha. unfold zero. ring.
Qed.
Lemma bil_split : forall n m A u v i,
    bil (n + m) (n + m) A u v i = bil n n A u v i + bil n m (fun i a b => A i a (n + b)%nat) u (fun b => v (n + b)%nat) i
      + bil m n (fun i a b => A i (n + a)%nat b) (fun a => u (n + a)%nat) v i
      + bil m m (fun i a b => A i (n + a)%nat (n + b)%nat) (fun a => u (n + a)%nat) (fun b => v (n + b)%nat) i.
Proof.
  intros n m A u v i. unfold bil. rewrite rsum_split.
  rewrite (rsum_ext n _ (fun j => rsum n (fun k => A i j k * u j * v k) + rsum m (fun k => A i j (n + k)%nat * u j * v (n + k)%nat))) by (intros; apply rsum_split).
  rewrite (rsum_ext m _ (fun j => rsum n (fun k => A i (n + j)%nat k * u (n + j)%nat * v k) + rsum m (fun k => A i (n + j)%nat (n + k)%nat * u (n + j)%nat * v (n + k)%nat))) by (intros; apply rsum_split).
  rewrite !rsum_plus. ring.
Qed.

(** Mean of a quadratic map of the shocks. *)
Lemma mean_covariance : forall M n_e p eps sigma A i, shocks M n_e p eps sigma ->
    mean M p (fun k => bil n_e n_e A (eps k) (eps k)) i = rsum n_e (fun j => rsum n_e (fun l => A i j l * sigma j l)).
Proof.
  intros M n_e p eps sigma A i H. unfold mean, bil.
  rewrite (rsum_ext M _ (fun k => rsum n_e (fun j => rsum n_e (fun l => A i j l * (p k * (eps k j * eps k l)))))).
  - rewrite rsum_swap. apply rsum_ext. intros j Hj. rewrite rsum_swap. apply rsum_ext. intros l Hl.
    rewrite rsum_scal, (sh_cov _ _ _ _ _ H) by assumption. reflexivity.
  - intros k _. rewrite <- rsum_scal. apply rsum_ext. intros j _. rewrite <- rsum_scal. apply rsum_ext. intros l _. ring.
Qed.

(** ** The equations solved *)

Lemma Err_inj : forall A (e e' : exn), @Err A e = Err e' -> e = e'.
Proof. intros A e e' H. injection H as H. exact H. Qed.

Lemma sylvester_error : forall solve A B C D n v d,
    nrow A = n /\ ncol A = n -> nrow B = n /\ ncol B = n -> nrow C = v /\ ncol C = v ->
    shape D = n :: repeat v d -> (1 <= d)%nat -> (1 <= v)%nat ->
    forall e, solve_sylvester solve A B C D = Err e -> exists m M b, solve m M b = Err e.
Proof.
  intros solve A B C D n v d HA HB HC HD Hd Hv e H.
  destruct (sylvester_run solve A B C D n v d HA HB HC HD Hd Hv) as (k & _ & E). rewrite H in E.
  destruct (solve (n * v ^ d)%nat _ k) as [x|e'] eqn:ES; cbn [bind] in E; [discriminate|].
  apply Err_inj in E. subst e'. eexists _, _, _. exact ES.
Qed.


Section Chain.
  Variable solve : nat -> matR -> (nat -> R) -> res (nat -> R).
  Hypothesis HE : exact_solver solve.
  Variables n_s n_x n_e : nat.
  Variables f1 g1 f2 g2 sigma X_s : nda.
  Let nv := (n_s + n_x)%nat.
  Let N := (nv + nv)%nat.
  Let G := (nv + n_e)%nat.
  Hypothesis Hns : (1 <= n_s)%nat.
  Hypothesis Hf1 : shape f1 = [n_x; N].
  Hypothesis Hg1 : shape g1 = [n_s; G].
  Hypothesis Hf2 : shape f2 = [n_x; N; N].
  Hypothesis Hg2 : shape g2 = [n_s; G; G].
  Hypothesis Hsig : shape sigma = [n_e; n_e].
  Hypothesis HX : shape X_s = [n_x; n_s].

  Definition c_X (i j : nat) := at_ X_s [i; j].
  Definition c_fx (i j : nat) := at_ f1 [i; (n_s + j)%nat].
  Definition c_fS (i j : nat) := at_ f1 [i; (n_s + n_x + j)%nat].
  Definition c_fX (i j : nat) := at_ f1 [i; (n_s + n_x + n_s + j)%nat].
  Definition c_gs (i j : nat) := at_ g1 [i; j].
  Definition c_gx (i j : nat) := at_ g1 [i; (n_s + j)%nat].
  Definition c_ge (i j : nat) := at_ g1 [i; (n_s + n_x + j)%nat].
  Definition c_P (i j : nat) := c_gs i j + rsum n_x (fun k => c_gx i k * c_X k j).
  Definition c_XP (i j : nat) := rsum n_s (fun k => c_X i k * c_P k j).
  Definition c_V := above n_s eye (above n_x c_X (above n_s c_P c_XP)).
  Definition c_K2 (i j k : nat) :=
    at_ g2 [i; j; k] + 2 * rsum n_x (fun l => at_ g2 [i; j; (n_s + l)%nat] * c_X l k)
    + rsum n_x (fun a => rsum n_x (fun b => at_ g2 [i; (n_s + a)%nat; (n_s + b)%nat] * c_X a j * c_X b k)).
  Definition c_L (i j : nat) := c_fS i j + rsum n_x (fun k => c_fX i k * c_X k j).
  Definition c_A (i j : nat) := c_fx i j + rsum n_s (fun k => c_L i k * c_gx k j).
  Definition c_D (i j k : nat) :=
    rsum N (fun a => rsum N (fun b => at_ f2 [i; a; b] * c_V a j * c_V b k)) + rsum n_s (fun l => c_L i l * c_K2 l j k).
  Definition c_v := above n_s c_ge (fun i j => rsum n_s (fun k => c_X i k * c_ge k j)).
  Definition c_Kt (Xss : nat -> nat -> nat -> R) (i j k : nat) :=
    rsum nv (fun a => rsum nv (fun b => at_ f2 [i; (nv + a)%nat; (nv + b)%nat] * c_v a j * c_v b k))
    + rsum n_s (fun l => c_L i l * at_ g2 [l; (nv + j)%nat; (nv + k)%nat])
    + rsum n_s (fun a => rsum n_s (fun b => rsum n_x (fun c => c_fX i c * Xss c a b) * c_ge a j * c_ge b k)).
  Definition c_Lt (i j : nat) := c_fx i j + rsum n_s (fun k => c_fS i k * c_gx k j)
    + rsum n_x (fun c => c_fX i c * (rsum n_s (fun k => c_X c k * c_gx k j) + eye c j)).

  Record equations2 (so : second) : Prop := {
    e_V13 : is2 (so_V13 so) n_s n_s c_P;
    e_V1 : is2 (so_V1 so) N n_s c_V;
    e_K2 : is3 (so_K2 so) n_s n_s n_s c_K2;
    e_A : is2 (so_A so) n_x n_x c_A;
    e_L : is2 (so_L so) n_x n_s c_L;
    e_Xss : shape (so_Xss so) = [n_x; n_s; n_s];
    e_Xtt : shape (so_Xtt so) = [n_x];
    e_ss : forall i j k, (i < n_x)%nat -> (j < n_s)%nat -> (k < n_s)%nat ->
      rsum n_x (fun c => c_A i c * at_ (so_Xss so) [c; j; k])
      + rsum n_x (fun c => c_fX i c * rsum n_s (fun l1 => rsum n_s (fun l2 => at_ (so_Xss so) [c; l1; l2] * c_P l1 j * c_P l2 k)))
      + c_D i j k = 0;
    e_tt : forall i, (i < n_x)%nat ->
      rsum n_x (fun c => c_Lt i c * at_ (so_Xtt so) [c])
      + rsum n_e (fun j => rsum n_e (fun k => c_Kt (fun i j k => at_ (so_Xss so) [i; j; k]) i j k * at_ sigma [j; k])) = 0 }.

  Tactic Notation "stp" hyp(H) constr(lem) ident(T) ident(HT) := let E := fresh "E" in destruct lem as (T & E & HT); rewrite E in H; cbn [bind] in H; clear E.

  Lemma second_order_equations : forall so, second_order solve n_s n_x f1 g1 f2 g2 sigma X_s = Ok so -> equations2 so.
  Proof.
    intros so H. unfold second_order in H. cbv zeta in H. fold nv in H.
    pose proof (is2_self _ _ _ Hf1) as F1. pose proof (is2_self _ _ _ Hg1) as G1.
    pose proof (is3_self _ _ _ _ Hf2) as F2. pose proof (is3_self _ _ _ _ Hg2) as G2.
    pose proof (is2_self _ _ _ Hsig) as SG. pose proof (is2_self _ _ _ HX) as XS. fold c_X in XS.
    change (is2 X_s n_x n_s c_X) in XS.
    stp H (slice2 f1 _ _ _ all_ (from_to n_s nv) 0%nat n_s n_x n_x F1 ltac:(rd) ltac:(unfold nv, N in *; rd)) f_x Hfx. change (is2 f_x n_x n_x c_fx) in Hfx.
    stp H (slice2 f1 _ _ _ all_ (from_to nv (nv + n_s)) 0%nat nv n_x n_s F1 ltac:(rd) ltac:(unfold nv, N in *; rd)) f_snext HfS. change (is2 f_snext n_x n_s c_fS) in HfS.
    stp H (slice2 f1 _ _ _ all_ (from_ (nv + n_s)) 0%nat (nv + n_s)%nat n_x n_x F1 ltac:(rd) ltac:(unfold N, nv in *; rd)) f_xnext HfX. change (is2 f_xnext n_x n_x c_fX) in HfX.
    stp H (slice2 g1 _ _ _ all_ (to_ n_s) 0%nat 0%nat n_s n_s G1 ltac:(rd) ltac:(unfold G, nv in *; rd)) g_s Hgs. change (is2 g_s n_s n_s c_gs) in Hgs.
    stp H (slice2 g1 _ _ _ all_ (from_to n_s nv) 0%nat n_s n_s n_x G1 ltac:(rd) ltac:(unfold G, nv in *; rd)) g_x Hgx. change (is2 g_x n_s n_x c_gx) in Hgx.
    stp H (slice2 g1 _ _ _ all_ (from_ nv) 0%nat nv n_s n_e G1 ltac:(rd) ltac:(unfold G, nv in *; rd)) g_e Hge. change (is2 g_e n_s n_e c_ge) in Hge.
    stp H (slice3 g2 _ _ _ _ all_ (to_ n_s) (to_ n_s) 0%nat 0%nat 0%nat n_s n_s n_s G2 ltac:(rd) ltac:(unfold G, nv in *; rd) ltac:(unfold G, nv in *; rd)) g_ss Hgss.
    stp H (slice3 g2 _ _ _ _ all_ (to_ n_s) (from_to n_s nv) 0%nat 0%nat n_s n_s n_s n_x G2 ltac:(rd) ltac:(unfold G, nv in *; rd) ltac:(unfold G, nv in *; rd)) g_sx Hgsx.
    stp H (slice3 g2 _ _ _ _ all_ (from_to n_s nv) (from_to n_s nv) 0%nat n_s n_s n_s n_x n_x G2 ltac:(rd) ltac:(unfold G, nv in *; rd) ltac:(unfold G, nv in *; rd)) g_xx Hgxx.
    cbn [Nat.add] in Hgss, Hgsx, Hgxx.
    stp H (dot22 _ _ _ _ _ _ _ Hgx XS) gxX HgxX.
    stp H (add2 _ _ _ _ _ _ Hgs HgxX) V1_3 HP. change (is2 V1_3 n_s n_s c_P) in HP.
    stp H (dot22 _ _ _ _ _ _ _ XS HP) XV HXV. change (is2 XV n_x n_s c_XP) in HXV.
    destruct (stack2 V1_3 [XV] XV _ _ _ _ _ ltac:(discriminate) eq_refl HP HXV) as (st1 & E1 & H1).
    destruct (stack2 X_s [V1_3; XV] _ _ _ _ _ _ ltac:(discriminate) E1 XS H1) as (st2 & E2 & H2).
    destruct (stack2 (nd_eye n_s) [X_s; V1_3; XV] _ _ _ _ _ _ ltac:(discriminate) E2 (eye2 n_s) H2) as (V1 & E3 & HV1).
    rewrite E3 in H. cbn [bind] in H. clear E1 E2 E3 H1 H2.
    assert (HN : (n_s + (n_x + (n_s + n_x)))%nat = N) by (unfold N, nv; lia). rewrite HN in HV1. change (is2 V1 N n_s c_V) in HV1.
    stp H (sdot32 _ _ _ _ _ _ _ _ Hgsx XS) gsxX HgsxX.
    stp H (mdot322 _ _ _ _ _ _ _ _ _ _ _ Hgxx XS XS) gxxXX HgxxXX.
    stp H (add3 _ _ _ _ _ _ _ Hgss (scale3 2 _ _ _ _ _ HgsxX)) K2a HK2a.
    stp H (add3 _ _ _ _ _ _ _ HK2a HgxxXX) K2 HK2. change (is3 K2 n_s n_s n_s c_K2) in HK2.
    stp H (dot22 _ _ _ _ _ _ _ HfX XS) fXX HfXX.
    stp H (add2 _ _ _ _ _ _ HfS HfXX) L HL. change (is2 L n_x n_s c_L) in HL.
    stp H (dot22 _ _ _ _ _ _ _ HL Hgx) Lgx HLgx.
    stp H (add2 _ _ _ _ _ _ Hfx HLgx) A HA. change (is2 A n_x n_x c_A) in HA.
    stp H (mdot322 _ _ _ _ _ _ _ _ _ _ _ F2 HV1 HV1) f2VV Hf2VV.
    stp H (sdot23 _ _ _ _ _ _ _ _ HL HK2) LK2 HLK2.
    stp H (add3 _ _ _ _ _ _ _ Hf2VV HLK2) D HD. change (is3 D n_x n_s n_s c_D) in HD.
    destruct (solve_sylvester solve (to_mat A) (to_mat f_xnext) (to_mat V1_3) D) as [X_ss|e] eqn:ES; cbn [bind] in H; [|discriminate].
    destruct (sylvester3 _ _ _ _ _ _ _ _ _ _ _ _ HE Hns HA HfX HP HD ES) as (HXss & Hss).
    stp H (slice3 g2 _ _ _ _ all_ (from_ nv) (from_ nv) 0%nat nv nv n_s n_e n_e G2 ltac:(rd) ltac:(unfold G, nv in *; rd) ltac:(unfold G, nv in *; rd)) g_ee Hgee.
    stp H (dot22 _ _ _ _ _ _ _ XS Hge) Xge HXge.
    destruct (stack2 g_e [Xge] Xge _ _ _ _ _ ltac:(discriminate) eq_refl Hge HXge) as (v & Ev & Hv). rewrite Ev in H. cbn [bind] in H. clear Ev.
    fold nv in Hv. change (is2 v nv n_e c_v) in Hv.
    stp H (slice3 f2 _ _ _ _ all_ (from_ nv) (from_ nv) 0%nat nv nv n_x nv nv F2 ltac:(rd) ltac:(unfold N in *; rd) ltac:(unfold N in *; rd)) f2nn Hf2nn.
    stp H (mdot322 _ _ _ _ _ _ _ _ _ _ _ Hf2nn Hv Hv) K1 HK1.
    stp H (sdot23 _ _ _ _ _ _ _ _ HL Hgee) Lgee HLgee.
    stp H (add3 _ _ _ _ _ _ _ HK1 HLgee) K2t HK2t.
    stp H (sdot23 _ _ _ _ _ _ _ _ HfX HXss) fXXss HfXXss.
    stp H (mdot322 _ _ _ _ _ _ _ _ _ _ _ HfXXss Hge Hge) fXgg HfXgg.
    stp H (add3 _ _ _ _ _ _ _ HK2t HfXgg) K3t HK3t. change (is3 K3t n_x n_e n_e (c_Kt (fun i j k => at_ X_ss [i; j; k]))) in HK3t.
    stp H (against3 _ _ _ _ _ _ HK3t SG) K_tt HK_tt.
    stp H (dot22 _ _ _ _ _ _ _ HfS Hgx) fSgx HfSgx.
    stp H (dot22 _ _ _ _ _ _ _ XS Hgx) Xgx HXgx.
    stp H (add2 _ _ _ _ _ _ HXgx (eye2 n_x)) XgxI HXgxI.
    stp H (dot22 _ _ _ _ _ _ _ HfX HXgxI) fXr HfXr.
    stp H (add2 _ _ _ _ _ _ Hfx HfSgx) L1 HL1.
    stp H (add2 _ _ _ _ _ _ HL1 HfXr) L_tt HLtt. change (is2 L_tt n_x n_x c_Lt) in HLtt.
    unfold np_solve in H. destruct (to_mat_dims _ _ _ _ HLtt) as (Er & Ec). rewrite Er, Ec, (proj1 HK_tt) in H. cbn [nth] in H. rewrite !Nat.eqb_refl in H. cbn [negb] in H.
    destruct (solve n_x (mget (to_mat L_tt)) (fun i => - at_ K_tt [i])) as [X_tt|e] eqn:Et; cbn [bind] in H; [|discriminate].
    apply Ok_inj in H. subst so. destruct (HE _ _ _ _ Et) as (Ht & _).
    constructor; cbn [so_V13 so_V1 so_K2 so_A so_Xss so_Xtt so_L at_ shape]; try assumption.
    - exact (proj1 HXss).
    - reflexivity.
    - intros i Hi. specialize (Ht i Hi). cbv beta in Ht. rewrite (proj2 HK_tt) in Ht by exact Hi. cbn [nth].
      transitivity (mat_vec n_x (mget (to_mat L_tt)) X_tt i + rsum n_e (fun j => rsum n_e (fun k => c_Kt (fun i j k => at_ X_ss [i; j; k]) i j k * at_ sigma [j; k]))).
      + f_equal. unfold mat_vec. apply rsum_ext. intros c Hc. rewrite to_mat_get, (proj2 HLtt) by assumption. reflexivity.
      + rewrite Ht. ring.
  Qed.

  Lemma second_order_error : forall e, second_order solve n_s n_x f1 g1 f2 g2 sigma X_s = Err e -> exists m M b, solve m M b = Err e.
  Proof.
    intros e H. unfold second_order in H. cbv zeta in H. fold nv in H.
    pose proof (is2_self _ _ _ Hf1) as F1. pose proof (is2_self _ _ _ Hg1) as G1.
    pose proof (is3_self _ _ _ _ Hf2) as F2. pose proof (is3_self _ _ _ _ Hg2) as G2.
    pose proof (is2_self _ _ _ Hsig) as SG. pose proof (is2_self _ _ _ HX) as XS. fold c_X in XS.
    change (is2 X_s n_x n_s c_X) in XS.
    stp H (slice2 f1 _ _ _ all_ (from_to n_s nv) 0%nat n_s n_x n_x F1 ltac:(rd) ltac:(unfold nv, N in *; rd)) f_x Hfx. change (is2 f_x n_x n_x c_fx) in Hfx.
    stp H (slice2 f1 _ _ _ all_ (from_to nv (nv + n_s)) 0%nat nv n_x n_s F1 ltac:(rd) ltac:(unfold nv, N in *; rd)) f_snext HfS. change (is2 f_snext n_x n_s c_fS) in HfS.
    stp H (slice2 f1 _ _ _ all_ (from_ (nv + n_s)) 0%nat (nv + n_s)%nat n_x n_x F1 ltac:(rd) ltac:(unfold N, nv in *; rd)) f_xnext HfX. change (is2 f_xnext n_x n_x c_fX) in HfX.
    stp H (slice2 g1 _ _ _ all_ (to_ n_s) 0%nat 0%nat n_s n_s G1 ltac:(rd) ltac:(unfold G, nv in *; rd)) g_s Hgs. change (is2 g_s n_s n_s c_gs) in Hgs.
    stp H (slice2 g1 _ _ _ all_ (from_to n_s nv) 0%nat n_s n_s n_x G1 ltac:(rd) ltac:(unfold G, nv in *; rd)) g_x Hgx. change (is2 g_x n_s n_x c_gx) in Hgx.
    stp H (slice2 g1 _ _ _ all_ (from_ nv) 0%nat nv n_s n_e G1 ltac:(rd) ltac:(unfold G, nv in *; rd)) g_e Hge. change (is2 g_e n_s n_e c_ge) in Hge.
    stp H (slice3 g2 _ _ _ _ all_ (to_ n_s) (to_ n_s) 0%nat 0%nat 0%nat n_s n_s n_s G2 ltac:(rd) ltac:(unfold G, nv in *; rd) ltac:(unfold G, nv in *; rd)) g_ss Hgss.
    stp H (slice3 g2 _ _ _ _ all_ (to_ n_s) (from_to n_s nv) 0%nat 0%nat n_s n_s n_s n_x G2 ltac:(rd) ltac:(unfold G, nv in *; rd) ltac:(unfold G, nv in *; rd)) g_sx Hgsx.
    stp H (slice3 g2 _ _ _ _ all_ (from_to n_s nv) (from_to n_s nv) 0%nat n_s n_s n_s n_x n_x G2 ltac:(rd) ltac:(unfold G, nv in *; rd) ltac:(unfold G, nv in *; rd)) g_xx Hgxx.
    cbn [Nat.add] in Hgss, Hgsx, Hgxx.
    stp H (dot22 _ _ _ _ _ _ _ Hgx XS) gxX HgxX.
    stp H (add2 _ _ _ _ _ _ Hgs HgxX) V1_3 HP. change (is2 V1_3 n_s n_s c_P) in HP.
    stp H (dot22 _ _ _ _ _ _ _ XS HP) XV HXV. change (is2 XV n_x n_s c_XP) in HXV.
    destruct (stack2 V1_3 [XV] XV _ _ _ _ _ ltac:(discriminate) eq_refl HP HXV) as (st1 & E1 & H1).
    destruct (stack2 X_s [V1_3; XV] _ _ _ _ _ _ ltac:(discriminate) E1 XS H1) as (st2 & E2 & H2).
    destruct (stack2 (nd_eye n_s) [X_s; V1_3; XV] _ _ _ _ _ _ ltac:(discriminate) E2 (eye2 n_s) H2) as (V1 & E3 & HV1).
    rewrite E3 in H. cbn [bind] in H. clear E1 E2 E3 H1 H2.
    assert (HN : (n_s + (n_x + (n_s + n_x)))%nat = N) by (unfold N, nv; lia). rewrite HN in HV1. change (is2 V1 N n_s c_V) in HV1.
    stp H (sdot32 _ _ _ _ _ _ _ _ Hgsx XS) gsxX HgsxX.
    stp H (mdot322 _ _ _ _ _ _ _ _ _ _ _ Hgxx XS XS) gxxXX HgxxXX.
    stp H (add3 _ _ _ _ _ _ _ Hgss (scale3 2 _ _ _ _ _ HgsxX)) K2a HK2a.
    stp H (add3 _ _ _ _ _ _ _ HK2a HgxxXX) K2 HK2. change (is3 K2 n_s n_s n_s c_K2) in HK2.
    stp H (dot22 _ _ _ _ _ _ _ HfX XS) fXX HfXX.
    stp H (add2 _ _ _ _ _ _ HfS HfXX) L HL. change (is2 L n_x n_s c_L) in HL.
    stp H (dot22 _ _ _ _ _ _ _ HL Hgx) Lgx HLgx.
    stp H (add2 _ _ _ _ _ _ Hfx HLgx) A HA. change (is2 A n_x n_x c_A) in HA.
    stp H (mdot322 _ _ _ _ _ _ _ _ _ _ _ F2 HV1 HV1) f2VV Hf2VV.
    stp H (sdot23 _ _ _ _ _ _ _ _ HL HK2) LK2 HLK2.
    stp H (add3 _ _ _ _ _ _ _ Hf2VV HLK2) D HD. change (is3 D n_x n_s n_s c_D) in HD.
    destruct (solve_sylvester solve (to_mat A) (to_mat f_xnext) (to_mat V1_3) D) as [X_ss|e'] eqn:ES; cbn [bind] in H;
      [|apply Err_inj in H; subst e'; exact (sylvester_error _ _ _ _ _ n_x n_s 2 (to_mat_dims _ _ _ _ HA) (to_mat_dims _ _ _ _ HfX) (to_mat_dims _ _ _ _ HP) (proj1 HD) ltac:(lia) Hns _ ES)].
    destruct (sylvester3 _ _ _ _ _ _ _ _ _ _ _ _ HE Hns HA HfX HP HD ES) as (HXss & Hss).
    stp H (slice3 g2 _ _ _ _ all_ (from_ nv) (from_ nv) 0%nat nv nv n_s n_e n_e G2 ltac:(rd) ltac:(unfold G, nv in *; rd) ltac:(unfold G, nv in *; rd)) g_ee Hgee.
    stp H (dot22 _ _ _ _ _ _ _ XS Hge) Xge HXge.
    destruct (stack2 g_e [Xge] Xge _ _ _ _ _ ltac:(discriminate) eq_refl Hge HXge) as (v & Ev & Hv). rewrite Ev in H. cbn [bind] in H. clear Ev.
    fold nv in Hv. change (is2 v nv n_e c_v) in Hv.
    stp H (slice3 f2 _ _ _ _ all_ (from_ nv) (from_ nv) 0%nat nv nv n_x nv nv F2 ltac:(rd) ltac:(unfold N in *; rd) ltac:(unfold N in *; rd)) f2nn Hf2nn.
    stp H (mdot322 _ _ _ _ _ _ _ _ _ _ _ Hf2nn Hv Hv) K1 HK1.
    stp H (sdot23 _ _ _ _ _ _ _ _ HL Hgee) Lgee HLgee.
    stp H (add3 _ _ _ _ _ _ _ HK1 HLgee) K2t HK2t.
    stp H (sdot23 _ _ _ _ _ _ _ _ HfX HXss) fXXss HfXXss.
    stp H (mdot322 _ _ _ _ _ _ _ _ _ _ _ HfXXss Hge Hge) fXgg HfXgg.
    stp H (add3 _ _ _ _ _ _ _ HK2t HfXgg) K3t HK3t. change (is3 K3t n_x n_e n_e (c_Kt (fun i j k => at_ X_ss [i; j; k]))) in HK3t.
    stp H (against3 _ _ _ _ _ _ HK3t SG) K_tt HK_tt.
    stp H (dot22 _ _ _ _ _ _ _ HfS Hgx) fSgx HfSgx.
    stp H (dot22 _ _ _ _ _ _ _ XS Hgx) Xgx HXgx.
    stp H (add2 _ _ _ _ _ _ HXgx (eye2 n_x)) XgxI HXgxI.
    stp H (dot22 _ _ _ _ _ _ _ HfX HXgxI) fXr HfXr.
    stp H (add2 _ _ _ _ _ _ Hfx HfSgx) L1 HL1.
    stp H (add2 _ _ _ _ _ _ HL1 HfXr) L_tt HLtt. change (is2 L_tt n_x n_x c_Lt) in HLtt.
    unfold np_solve in H. destruct (to_mat_dims _ _ _ _ HLtt) as (Er & Ec). rewrite Er, Ec, (proj1 HK_tt) in H. cbn [nth] in H. rewrite !Nat.eqb_refl in H. cbn [negb] in H.
    destruct (solve n_x (mget (to_mat L_tt)) (fun i => - at_ K_tt [i])) as [X_tt|e'] eqn:Et; cbn [bind] in H; [discriminate|].
    apply Err_inj in H. subst e'. eexists _, _, _. exact Et.
  Qed.


  (** ** Conditions *)

  Let F1 := fun i j => at_ f1 [i; j].
  Let G1 := fun i j => at_ g1 [i; j].
  Let F2 := fun i j k => at_ f2 [i; j; k].
  Let G2 := fun i j k => at_ g2 [i; j; k].
  Let c_fs := fun i j => at_ f1 [i; j].

  Lemma N_assoc : (n_s + (n_x + (n_s + n_x)))%nat = N.
  Proof. unfold N, nv. lia. Qed.
  Lemma G_assoc : (n_s + (n_x + n_e))%nat = G.
  Proof. unfold G, nv. lia. Qed.

  Lemma lin_stack4 : forall s x s' x' i,
      lin (n_s + (n_x + (n_s + n_x))) F1 (stack4 n_s n_x s x s' x') i
      = lin n_s c_fs s i + lin n_x c_fx x i + lin n_s c_fS s' i + lin n_x c_fX x' i.
  Proof.
    intros. unfold stack4. rewrite !lin_glue.
    rewrite (lin_ext n_s (fun i j => F1 i (n_s + (n_x + j))%nat) c_fS s' s' i) by (reflexivity || (intros; unfold F1, c_fS; do 3 f_equal; lia)).
    rewrite (lin_ext n_x (fun i j => F1 i (n_s + (n_x + (n_s + j)))%nat) c_fX x' x' i) by (reflexivity || (intros; unfold F1, c_fX; do 3 f_equal; lia)).
    unfold c_fs, c_fx, F1. ring.
  Qed.
  Lemma lin_stack3 : forall s x e i,
      lin (n_s + (n_x + n_e)) G1 (HigherOrderAlgebra.stack3 n_s n_x s x e) i = lin n_s c_gs s i + lin n_x c_gx x i + lin n_e c_ge e i.
  Proof.
    intros. unfold HigherOrderAlgebra.stack3. rewrite !lin_glue.
    rewrite (lin_ext n_e (fun i j => G1 i (n_s + (n_x + j))%nat) c_ge e e i) by (reflexivity || (intros; unfold G1, c_ge; do 3 f_equal; lia)).
    unfold c_gs, c_gx, G1. ring.
  Qed.
  Lemma lin_L : forall u i, lin n_s c_L u i = lin n_s c_fS u i + lin n_x c_fX (lin n_s c_X u) i.
  Proof. intros. unfold c_L. rewrite lin_add_coef, lin_comp. reflexivity. Qed.
  Lemma lin_A : forall u i, lin n_x c_A u i = lin n_x c_fx u i + lin n_s c_L (lin n_x c_gx u) i.
  Proof. intros. unfold c_A. rewrite lin_add_coef, lin_comp. reflexivity. Qed.
  Lemma lin_P : forall h i, lin n_s c_P h i = s_next n_s n_x n_e G1 c_X h i.
  Proof.
    intros. unfold c_P. rewrite lin_add_coef, lin_comp. unfold s_next, w_of, x_of. rewrite lin_stack3.
    rewrite (lin_zero n_e c_ge zero) by reflexivity. ring.
  Qed.
  Lemma lin_V : forall h a, (a < N)%nat -> lin n_s c_V h a = v_of n_s n_x n_e G1 c_X h a.
  Proof.
    intros h a Ha. rewrite <- N_assoc in Ha. unfold v_of, x_of. unfold c_V.
    rewrite (lin_above n_s (n_x + (n_s + n_x)) _ _ h a Ha). unfold stack4. apply (glue_ext n_s (n_x + (n_s + n_x))); [|intros b Hb|exact Ha].
    - intros b Hb. apply lin_eye. exact Hb.
    - rewrite (lin_above n_x (n_s + n_x) _ _ h b Hb). apply (glue_ext n_x (n_s + n_x)); [reflexivity|intros c Hc|exact Hb].
      rewrite (lin_above n_s n_x _ _ h c Hc). apply (glue_ext n_s n_x); [intros; apply lin_P|intros d Hd|exact Hc].
      unfold c_XP. rewrite lin_comp. apply lin_ext_v. intros. apply lin_P.
  Qed.

  Lemma chain_condition1 :
    solves_linear_model n_s n_x c_gs c_gx c_fs c_fx c_fS c_fX c_X -> condition1 n_s n_x n_e F1 G1 c_X.
  Proof.
    intros H h i Hi. unfold v_of. rewrite lin_stack4.
    transitivity (lin n_s (fun i j => c_fs i j + mat_mul n_x c_fx c_X i j + mat_mul n_s (fun a b => c_fS a b + mat_mul n_x c_fX c_X a b) (motion n_x c_gs c_gx c_X) i j) h i).
    - rewrite !lin_add_coef. unfold mat_mul. rewrite !lin_comp. unfold x_of.
      rewrite (lin_ext_v n_s (fun a b => c_fS a b + rsum n_x (fun k => c_fX a k * c_X k b)) _ (s_next n_s n_x n_e G1 c_X h)) by (intros; apply lin_P).
      rewrite lin_add_coef, lin_comp. ring.
    - apply rsum_0. intros j Hj. rewrite (H i j Hi Hj). ring.
  Qed.

  Hypothesis G2_sym : forall i j k, (i < n_s)%nat -> (j < G)%nat -> (k < G)%nat -> G2 i j k = G2 i k j.

  (** K2 along a direction. *)
  Lemma bil_K2 : forall h i, (i < n_s)%nat ->
      bil n_s n_s c_K2 h h i = bil (n_s + (n_x + n_e)) (n_s + (n_x + n_e)) G2 (w_of n_s n_x c_X h) (w_of n_s n_x c_X h) i.
  Proof.
    intros h i Hi. unfold c_K2. rewrite !bil_add_coef, bil_scal_coef, bil_comp_r, bil_comp.
    rewrite bil_split.
    rewrite (bil_ext n_s n_s G2 G2 (w_of n_s n_x c_X h) (w_of n_s n_x c_X h) h h i) by (reflexivity || (intros; apply glue_lt; assumption)).
    assert (E : forall a : nat, w_of n_s n_x c_X h (n_s + a)%nat = glue n_x (lin n_s c_X h) zero a) by (intros; unfold w_of, HigherOrderAlgebra.stack3; apply glue_ge).
    assert (E1 : bil n_s (n_x + n_e) (fun i a b => G2 i a (n_s + b)%nat) (w_of n_s n_x c_X h) (fun b => w_of n_s n_x c_X h (n_s + b)%nat) i
                 = bil n_s n_x (fun i a b => G2 i a (n_s + b)%nat) h (lin n_s c_X h) i).
    { unfold bil. apply rsum_ext. intros j Hj. rewrite rsum_split. rewrite (rsum_0 n_e).
      - rewrite Rplus_0_r. apply rsum_ext. intros k Hk. rewrite E, glue_lt by exact Hk. unfold w_of, HigherOrderAlgebra.stack3. rewrite glue_lt by exact Hj. reflexivity.
      - intros k Hk. rewrite E, glue_ge. unfold zero. ring. }
    assert (E2 : bil (n_x + n_e) n_s (fun i a b => G2 i (n_s + a)%nat b) (fun a => w_of n_s n_x c_X h (n_s + a)%nat) (w_of n_s n_x c_X h) i
                 = bil n_s n_x (fun i a b => G2 i a (n_s + b)%nat) h (lin n_s c_X h) i).
    { rewrite <- E1. unfold bil. rewrite rsum_swap. apply rsum_ext. intros j Hj. apply rsum_ext. intros k Hk.
      rewrite (G2_sym i j (n_s + k)) by (unfold G, nv; lia). ring. }
    assert (E3 : bil (n_x + n_e) (n_x + n_e) (fun i a b => G2 i (n_s + a)%nat (n_s + b)%nat) (fun a => w_of n_s n_x c_X h (n_s + a)%nat) (fun b => w_of n_s n_x c_X h (n_s + b)%nat) i
                 = bil n_x n_x (fun i a b => G2 i (n_s + a)%nat (n_s + b)%nat) (lin n_s c_X h) (lin n_s c_X h) i).
    { rewrite (bil_ext_v _ _ _ _ _ (glue n_x (lin n_s c_X h) zero) (glue n_x (lin n_s c_X h) zero)) by (intros; apply E).
      unfold bil. rewrite rsum_split. rewrite (rsum_0 n_e).
      - rewrite Rplus_0_r. apply rsum_ext. intros j Hj. rewrite rsum_split, (rsum_0 n_e).
        + rewrite Rplus_0_r. apply rsum_ext. intros k Hk. rewrite !glue_lt by assumption. reflexivity.
        + intros k Hk. rewrite (glue_ge n_x _ zero k). unfold zero. ring.
      - intros j Hj. apply rsum_0. intros k Hk. rewrite (glue_ge n_x _ zero j). unfold zero. ring. }
    rewrite E1, E2, E3. fold G2. change (fun i j k => at_ g2 [i; j; k]) with G2.
    change (fun i j a => at_ g2 [i; j; (n_s + a)%nat]) with (fun i a b => G2 i a (n_s + b)%nat).
    change (fun i a b => at_ g2 [i; (n_s + a)%nat; (n_s + b)%nat]) with (fun i a b => G2 i (n_s + a)%nat (n_s + b)%nat).
    ring.
  Qed.

  Variable so : second.
  Hypothesis HQ : equations2 so.
  Let Xss := fun i j k => at_ (so_Xss so) [i; j; k].
  Let Xtt := fun i => at_ (so_Xtt so) [i].

  Lemma chain_condition2 : condition2 n_s n_x n_e F1 G1 F2 G2 c_X Xss.
  Proof.
    intros h i Hi. rewrite lin_stack4. rewrite (lin_zero n_s c_fs zero) by reflexivity.
    set (u := bil n_s n_s Xss h h).
    set (S2 := s2_of n_s n_x n_e G1 G2 c_X Xss h).
    assert (EQ : lin n_x c_A u i + lin n_x c_fX (bil n_s n_s Xss (s_next n_s n_x n_e G1 c_X h) (s_next n_s n_x n_e G1 c_X h)) i
                 + (bil (n_s + (n_x + (n_s + n_x))) (n_s + (n_x + (n_s + n_x))) F2 (v_of n_s n_x n_e G1 c_X h) (v_of n_s n_x n_e G1 c_X h) i
                    + lin n_s c_L (bil n_s n_s c_K2 h h) i) = 0).
    { transitivity (bil n_s n_s (fun i j k => rsum n_x (fun c => c_A i c * Xss c j k)
        + rsum n_x (fun c => c_fX i c * rsum n_s (fun l1 => rsum n_s (fun l2 => Xss c l1 l2 * c_P l1 j * c_P l2 k))) + c_D i j k) h h i).
      - rewrite !bil_add_coef, !bil_of_lin. unfold u. f_equal; [f_equal|].
        + apply lin_ext_v. intros c _. rewrite bil_comp. apply bil_ext_v; intros; symmetry; apply lin_P.
        + unfold c_D. rewrite bil_add_coef, bil_comp, bil_of_lin. rewrite N_assoc. f_equal. apply bil_ext_v; intros; symmetry; apply lin_V; assumption.
      - apply bil_zero_coef. intros j k Hj Hk. apply (e_ss so HQ); assumption. }
    assert (ES : forall j, (j < n_s)%nat -> S2 j = lin n_x c_gx u j + bil n_s n_s c_K2 h h j).
    { intros j Hj. unfold S2, s2_of. rewrite lin_stack3, bil_K2 by exact Hj.
      rewrite (lin_zero n_s c_gs zero), (lin_zero n_e c_ge zero) by reflexivity. unfold u. ring. }
    rewrite lin_plus. unfold x_of.
    assert (EL : lin n_s c_L S2 i = lin n_s c_L (lin n_x c_gx u) i + lin n_s c_L (bil n_s n_s c_K2 h h) i).
    { rewrite <- lin_plus. apply lin_ext_v. exact ES. }
    rewrite lin_L in EL. rewrite lin_A in EQ. lra.
  Qed.

  Variables (M : nat) (p : vector) (eps : nat -> vector).
  Hypothesis Hsh : shocks M n_e p eps (fun i j => at_ sigma [i; j]).

  Lemma s_shock_ge : forall e i, s_shock n_s n_x n_e G1 e i = lin n_e c_ge e i.
  Proof.
    intros. unfold s_shock, e_of. rewrite lin_stack3. rewrite (lin_zero n_s c_gs zero), (lin_zero n_x c_gx zero) by reflexivity. ring.
  Qed.
  Lemma bil_Kt : forall e i, bil n_e n_e (c_Kt Xss) e e i
      = bil (n_s + (n_x + (n_s + n_x))) (n_s + (n_x + (n_s + n_x))) F2 (v_shock n_s n_x n_e G1 c_X e) (v_shock n_s n_x n_e G1 c_X e) i
        + lin n_s c_L (bil (n_s + (n_x + n_e)) (n_s + (n_x + n_e)) G2 (e_of n_s n_x e) (e_of n_s n_x e)) i
        + lin n_x c_fX (bil n_s n_s Xss (s_shock n_s n_x n_e G1 e) (s_shock n_s n_x n_e G1 e)) i.
  Proof.
    intros e i. unfold c_Kt. rewrite !bil_add_coef. f_equal; [f_equal|].
    - rewrite bil_comp. unfold v_shock, stack4. rewrite !bil_glue_tail.
      apply bil_ext.
      + intros a b _ _. unfold F2, nv. rewrite <- !Nat.add_assoc; reflexivity.
      + intros a Ha. unfold c_v. rewrite (lin_above n_s n_x _ _ e a Ha). apply (glue_ext n_s n_x); [intros; symmetry; apply s_shock_ge|intros b Hb|exact Ha].
        rewrite lin_comp. unfold x_of. apply lin_ext_v. intros. symmetry. apply s_shock_ge.
      + intros a Ha. unfold c_v. rewrite (lin_above n_s n_x _ _ e a Ha). apply (glue_ext n_s n_x); [intros; symmetry; apply s_shock_ge|intros b Hb|exact Ha].
        rewrite lin_comp. unfold x_of. apply lin_ext_v. intros. symmetry. apply s_shock_ge.
    - rewrite (bil_of_lin n_e n_e n_s c_L (fun l j k => at_ g2 [l; (nv + j)%nat; (nv + k)%nat])). apply lin_ext_v. intros l _.
      unfold e_of, HigherOrderAlgebra.stack3. rewrite !bil_glue_tail. apply bil_ext; [|reflexivity|reflexivity].
      intros a b _ _. unfold G2, nv. rewrite <- !Nat.add_assoc; reflexivity.
    - rewrite (bil_comp n_e n_e n_s n_s (fun i a b => rsum n_x (fun c => c_fX i c * Xss c a b)) c_ge c_ge). rewrite bil_of_lin. apply lin_ext_v.
      intros c _. apply bil_ext_v; intros; symmetry; apply s_shock_ge.
  Qed.

  Lemma lin_Lt : forall u i, lin n_x c_Lt u i = lin n_x c_fx u i + lin n_s c_fS (lin n_x c_gx u) i
      + lin n_x c_fX (fun c => lin n_s c_X (lin n_x c_gx u) c + u c) i.
  Proof.
    intros u i. unfold c_Lt. rewrite !lin_add_coef, lin_comp. f_equal.
    rewrite (lin_comp n_x n_x c_fX (fun c j => rsum n_s (fun k => c_X c k * c_gx k j) + eye c j)). apply lin_ext_v. intros c Hc.
    rewrite lin_add_coef, lin_comp, lin_eye by exact Hc. reflexivity.
  Qed.

  Lemma chain_condition_risk : condition_risk n_s n_x n_e F1 G1 F2 G2 c_X Xss Xtt M p eps.
  Proof.
    intros i Hi. rewrite lin_stack4. rewrite (lin_zero n_s c_fs zero) by reflexivity.
    set (mG := mean M p (fun k => bil (n_s + (n_x + n_e)) (n_s + (n_x + n_e)) G2 (e_of n_s n_x (eps k)) (e_of n_s n_x (eps k)))).
    set (mX := mean M p (fun k => bil n_s n_s Xss (s_shock n_s n_x n_e G1 (eps k)) (s_shock n_s n_x n_e G1 (eps k)))).
    set (mF := mean M p (fun k => bil (n_s + (n_x + (n_s + n_x))) (n_s + (n_x + (n_s + n_x))) F2 (v_shock n_s n_x n_e G1 c_X (eps k)) (v_shock n_s n_x n_e G1 c_X (eps k)))).
    set (S2 := s2_risk n_s n_x n_e G1 G2 Xtt M p eps).
    assert (EQ : lin n_x c_Lt Xtt i + (mF i + lin n_s c_L mG i + lin n_x c_fX mX i) = 0).
    { rewrite <- (e_tt so HQ i Hi). f_equal.
      etransitivity; [|exact (mean_covariance M n_e p eps (fun i j => at_ sigma [i; j]) (c_Kt Xss) i Hsh)].
      unfold mF, mG, mX. rewrite <- !mean_lin, <- !mean_plus. apply mean_ext. intros k _. symmetry. apply bil_Kt. }
    assert (ES : forall j, S2 j = lin n_x c_gx Xtt j + mG j).
    { intros j. unfold S2, s2_risk. rewrite lin_stack3. rewrite (lin_zero n_s c_gs zero), (lin_zero n_e c_ge zero) by reflexivity. fold mG. ring. }
    assert (EL : lin n_s c_L S2 i = lin n_s c_L (lin n_x c_gx Xtt) i + lin n_s c_L mG i).
    { rewrite <- lin_plus. apply lin_ext_v. intros. apply ES. }
    rewrite !lin_L in EL. rewrite lin_Lt, lin_plus, lin_L in EQ.
    rewrite (lin_plus n_x c_fX (fun i => x_of n_s c_X S2 i + mX i) Xtt), (lin_plus n_x c_fX (x_of n_s c_X S2) mX). unfold x_of. lra.
  Qed.
End Chain.
