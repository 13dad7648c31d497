(** Order three: a model on which the result is wrong.
    s' = s/2 + s x + eps,  4 x - x' + s^2 + 3/4 (s' - s/2) = 0. *)
From Coq Require Import Reals List Arith Lia Lra.
From Verif.Base Require Import Prelude Ext Sums Arrays.
From Verif.Spec Require Import LinearAlgebra Perturbation HigherOrder.
From Verif.Model Require Import LinearSolve DecisionRule Perturbation.
From Verif.Base Require Import Nda.
From Verif.Model Require Import Tensor MatrixEquations Taylor HigherOrder.
From Verif.Proofs Require Import GaussFinal MatrixAlgebra PerturbationFinal MatrixEquationsProofs HigherOrderOps HigherOrderProofs HigherOrderFinal.
Import ListNotations.
Open Scope R_scope.

Definition b3_f1 : nda := Nda [1; 4]%nat (fun idx => match idx with
  | [_; 0%nat] => -3/8 | [_; 1%nat] => 4 | [_; 2%nat] => 3/4 | [_; 3%nat] => -1 | _ => 0 end).
Definition b3_f2 : nda := Nda [1; 4; 4]%nat (fun idx => match idx with [_; 0%nat; 0%nat] => 2 | _ => 0 end).
Definition b3_f3 : nda := Nda [1; 4; 4; 4]%nat (fun _ => 0).
Definition b3_g1 : nda := Nda [1; 3]%nat (fun idx => match idx with [_; 0%nat] => 1/2 | [_; 2%nat] => 1 | _ => 0 end).
Definition b3_g2 : nda := Nda [1; 3; 3]%nat (fun idx => match idx with [_; 0%nat; 1%nat] => 1 | [_; 1%nat; 0%nat] => 1 | _ => 0 end).
Definition b3_g3 : nda := Nda [1; 3; 3; 3]%nat (fun _ => 0).
Definition mat22 (a b c d : R) : matR := fun i j =>
  match i, j with 0%nat, 0%nat => a | 0%nat, 1%nat => b | 1%nat, 0%nat => c | 1%nat, 1%nat => d | _, _ => 0 end.
Definition b3_S := mat22 (5/4) (-3/5) 0 (4/5).
Definition b3_T := mat22 (5/8) (-12/5) 0 (16/5).
Definition b3_qz : nat -> matR -> matR -> ext -> res (matR * matR * matR * matR) :=
  fun _ _ _ _ => Ok (b3_S, b3_T, mat22 (4/5) (3/5) (-3/5) (4/5), eye).
Definition b3_f : vector -> vector := fun u _ => 4 * u 1%nat - u 3%nat + u 0%nat ^ 2 + 3 / 4 * (u 2%nat - u 0%nat / 2).
Definition b3_g : vector -> vector := fun u _ => u 0%nat / 2 + u 0%nat * u 1%nat + u 2%nat.

Lemma b3_schur : schur_routine 1 1 b3_f1 b3_g1 b3_qz.
Proof.
  intros c S T Q Z H. unfold b3_qz in H. apply Ok_inj in H. injection H as <- <- <- <-. split; [|split].
  - split; [| | |apply eye_orthogonal]; intros i j Hi Hj; change (1 + 1)%nat with 2%nat in Hi, Hj; repeat small;
      cbv -[Rplus Rmult Ropp Rinv IZR Rminus Rdiv]; lra.
  - intros i j Hp Hi Hj. assert (i = 1 /\ j = 0)%nat as (-> & ->) by lia. reflexivity.
  - intros i j Hp Hi Hj. assert (i = 1 /\ j = 0)%nat as (-> & ->) by lia. reflexivity.
Qed.

Lemma b3_first : exists X_s, first_order b3_qz gauss_solve 1 1 b3_f1 b3_g1 = Ok X_s /\ is2 X_s 1 1 (fun _ _ => 0).
Proof.
  assert (exists X_s, first_order b3_qz gauss_solve 1 1 b3_f1 b3_g1 = Ok X_s) as (X_s & E).
  { unfold first_order, b3_qz. cbv zeta. cbn [bind].
    assert (Ep : pairs_ok (1 + 1) b3_S b3_T = true).
    { unfold pairs_ok. apply forallb_forall. intros i Hi. cbn in Hi. destruct Hi as [<-|[<-|[]]]; cbn; unfold tol_geneigvals;
        rewrite !Rabs_pos_eq by lra;
        repeat match goal with |- context [Rlt_dec ?a ?b] => destruct (Rlt_dec a b); try lra; cbn end; reflexivity. }
    rewrite Ep. cbn [negb].
    assert (Eb : bk_check 1 1 (eigval b3_S b3_T) = Ok true).
    { unfold bk_check. cbn [Nat.eqb seq].
      rewrite (proj2 (existsb_exists _ _ : some_above _ _ = true <-> _)).
      + f_equal. apply existsb_exists. exists 1%nat. split; [cbn; auto|].
        rewrite (eigval_fin _ _ _ (1/4)); [| |].
        * unfold ext_ltb. cbn. destruct (Rle_dec 1 (1 / 4)); [lra|reflexivity].
        * cbn. lra.
        * cbn. rewrite Rabs_pos_eq; lra.
      + exists 0%nat. split; [cbn; auto|]. rewrite (eigval_fin _ _ _ 2).
        * cbn. destruct (Rle_dec 1 2); [reflexivity|lra].
        * cbn. lra.
        * cbn. rewrite Rabs_pos_eq; lra. }
    rewrite Eb. cbn [bind]. unfold first_rule.
    destruct (rule_matrix_total 1 1 eye (eye_nonsingular 1)) as (C & EC). rewrite EC. cbn [bind].
    destruct (columns_one (fun i j => b3_S j i) (fun i j => eye j i)) as (X & EX); [cbn; lra|]. rewrite EX. cbn [bind].
    destruct (columns_one (fun i j => eye j i) (fun i j => b3_T j i)) as (Y & EY); [unfold eye; cbn; lra|]. rewrite EY. cbn [bind].
    eexists. reflexivity. }
  exists X_s. split; [exact E|].
  destruct (first_order_solves b3_qz gauss_solve gauss_exact 1 1 b3_f1 b3_g1 b3_schur X_s E) as (_ & _ & Hs & Hl).
  split; [exact Hs|]. intros i j Hi Hj. repeat small. specialize (Hl 0%nat 0%nat ltac:(lia) ltac:(lia)).
  cbv -[Rplus Rmult Ropp Rinv IZR Rminus Rdiv so_Xss at_ b3_f1 b3_g1] in Hl. cbn -[Rdiv] in Hl. lra.
Qed.

Lemma kron_one : forall A C, nrow C = 1%nat -> ncol C = 1%nat -> mget (kron A C) 0%nat 0%nat = mget A 0%nat 0%nat * mget C 0%nat 0%nat.
Proof. intros A C Hr Hc. unfold kron. cbn [mget]. rewrite Hr, Hc. reflexivity. Qed.
Lemma kron_more_one : forall t A C, nrow C = 1%nat -> ncol C = 1%nat ->
    mget (kron_more A C t) 0%nat 0%nat = mget A 0%nat 0%nat * mget C 0%nat 0%nat ^ t.
Proof.
  induction t as [|t IH]; intros A C Hr Hc; cbn [kron_more pow]; [ring|]. rewrite IH, kron_one by assumption. ring.
Qed.

Lemma one_sylvester : forall A B C D FA FB FC d, is2 A 1 1 FA -> is2 B 1 1 FB -> is2 C 1 1 FC -> shape D = 1%nat :: repeat 1%nat d -> (1 <= d)%nat ->
    FA 0%nat 0%nat + FB 0%nat 0%nat * FC 0%nat 0%nat ^ d <> 0 ->
    exists X, solve_sylvester gauss_solve (to_mat A) (to_mat B) (to_mat C) D = Ok X.
Proof.
  intros A B C D FA FB FC d HA HB HC HD Hd Hne.
  apply (sylvester_returns (to_mat A) (to_mat B) (to_mat C) D 1 1 d (to_mat_dims _ _ _ _ HA) (to_mat_dims _ _ _ _ HB) (to_mat_dims _ _ _ _ HC) HD Hd (le_n 1)).
  rewrite Nat.pow_1_l. change (1 * 1)%nat with 1%nat.
  apply one_nonsingular. unfold sylvester_matrix. change (0 / 1)%nat with 0%nat. change (0 mod 1)%nat with 0%nat.
  destruct (to_mat_dims _ _ _ _ HC) as (Cr & Cc). rewrite !to_mat_get, (proj2 HA), (proj2 HB) by lia.
  assert (K : mget (kron_power (to_mat C) d) 0%nat 0%nat = FC 0%nat 0%nat ^ d).
  { unfold kron_power. rewrite kron_more_one by assumption. destruct d as [|[|d]]; [lia| |]; cbn [Nat.eqb].
    - rewrite to_mat_get, (proj2 HC) by lia. cbn. ring.
    - rewrite kron_one, to_mat_get, (proj2 HC) by (assumption || lia). replace (S (S d) - 2)%nat with d by lia. cbn [pow]. ring. }
  rewrite K. unfold eye. cbn [Nat.eqb]. rewrite Rmult_1_r. exact Hne.
Qed.

Tactic Notation "stg" constr(lem) ident(T) ident(HT) := let E := fresh "E" in destruct lem as (T & E & HT); rewrite E; cbn [bind]; clear E.

Ltac val := cbv -[Rplus Rmult Ropp Rinv IZR Rminus Rdiv at_ so_Xss b3_f1 b3_g1 b3_f2 b3_g2 b3_f3 b3_g3].
Ltac cst2 H c X := match type of H with is2 ?a 1 1 _ => 
  let K := fresh in assert (K : is2 a 1 1 (fun _ _ => c)) by abstract (split; [exact (proj1 H)|]; intros; repeat small; rewrite (proj2 H) by lia; val; rewrite ?(proj2 X) by lia; cbn -[Rdiv]; lra);
  clear H; rename K into H end.
Ltac cst3 H c X := match type of H with is3 ?a 1 1 1 _ => 
  let K := fresh in assert (K : is3 a 1 1 1 (fun _ _ _ => c)) by abstract (split; [exact (proj1 H)|]; intros; repeat small; rewrite (proj2 H) by lia; val; rewrite ?(proj2 X) by lia; cbn -[Rdiv]; lra);
  clear H; rename K into H end.
Ltac cst4 H c X := match type of H with is4 ?a 1 1 1 1 _ => 
  let K := fresh in assert (K : is4 a 1 1 1 1 (fun _ _ _ _ => c)) by abstract (split; [exact (proj1 H)|]; intros; repeat small; rewrite (proj2 H) by lia; val; rewrite ?(proj2 X) by lia; cbn -[Rdiv]; lra);
  clear H; rename K into H end.

Section Witness.
  (* Names for the arrays, so that nothing is computed by unfolding them. *)
  Variables f1 f2 f3 g1 g2 g3 : nda.
  Hypothesis F1 : is2 f1 1 4 (fun i j => at_ b3_f1 [i; j]).
  Hypothesis G1 : is2 g1 1 3 (fun i j => at_ b3_g1 [i; j]).
  Hypothesis F2 : is3 f2 1 4 4 (fun i j k => at_ b3_f2 [i; j; k]).
  Hypothesis G2 : is3 g2 1 3 3 (fun i j k => at_ b3_g2 [i; j; k]).
  Hypothesis F3 : is4 f3 1 4 4 4 (fun _ _ _ _ => 0).
  Hypothesis G3 : is4 g3 1 3 3 3 (fun _ _ _ _ => 0).
  Variables X_s : nda.
  Hypothesis HX : is2 X_s 1 1 (fun _ _ => 0).
  Variable so : second.
  Hypothesis HQ : equations2 1 1 1 b3_f1 b3_g1 b3_f2 b3_g2 (Nda [1; 1]%nat (fun _ => 1)) X_s so.

  Lemma b3_Xss : at_ (so_Xss so) [0; 0; 0]%nat = - 8 / 15.
  Proof.
    pose proof (e_ss _ _ _ _ _ _ _ _ _ _ HQ 0%nat 0%nat 0%nat ltac:(lia) ltac:(lia) ltac:(lia)) as H.
    cbv -[Rplus Rmult Ropp Rinv IZR Rminus Rdiv so_Xss at_ b3_f1 b3_g1 b3_f2 b3_g2] in H.
    rewrite !(proj2 HX) in H by lia. cbn -[Rdiv] in H. lra.
  Qed.

  Lemma b3_third_states : exists X_sss, third_states gauss_solve 1 1 f1 g1 f2 g2 f3 g3 X_s so = Ok X_sss /\
      is4 X_sss 1 1 1 1 (fun _ _ _ _ => 32 / 155).
  Proof.
    pose proof (e_V13 _ _ _ _ _ _ _ _ _ _ HQ) as HP. pose proof (e_V1 _ _ _ _ _ _ _ _ _ _ HQ) as HV.
    pose proof (e_K2 _ _ _ _ _ _ _ _ _ _ HQ) as HK2. pose proof (e_A _ _ _ _ _ _ _ _ _ _ HQ) as HA.
    pose proof (e_L _ _ _ _ _ _ _ _ _ _ HQ) as HL. pose proof (is3_self _ _ _ _ (e_Xss _ _ _ _ _ _ _ _ _ _ HQ)) as HXss.
    change (1 + 1 + (1 + 1))%nat with 4%nat in HV.
    assert (HV' : is2 (so_V1 so) 4 1 (fun i _ => match i with 0%nat => 1 | 2%nat => 1/2 | _ => 0 end)).
    { split; [exact (proj1 HV)|]. intros i j Hi Hj. rewrite (proj2 HV) by assumption. destruct i as [|[|[|[|i]]]]; try lia; repeat small;
        val; rewrite ?(proj2 HX) by lia; cbn -[Rdiv]; lra. }
    clear HV. rename HV' into HV.
    cst2 HP (1/2) HX. cst3 HK2 0 HX. cst2 HA 4 HX. cst2 HL (3/4) HX.
    assert (Hss : is3 (so_Xss so) 1 1 1 (fun _ _ _ => -8/15)).
    { split; [exact (proj1 HXss)|]. intros i j k Hi Hj Hk. repeat small. exact b3_Xss. }
    clear HXss. rename Hss into HXss.
    unfold third_states. cbv zeta. change (1 + 1)%nat with 2%nat. change (2 + 1)%nat with 3%nat.
    stg (slice2 f1 _ _ _ all_ (from_ 3) 0%nat 3%nat 1%nat 1%nat F1 ltac:(rd) ltac:(rd)) fX HfX. cst2 HfX (-1) HX.
    stg (slice2 g1 _ _ _ all_ (from_to 1 2) 0%nat 1%nat 1%nat 1%nat G1 ltac:(rd) ltac:(rd)) gx Hgx. cst2 Hgx 0 HX.
    stg (slice3 g2 _ _ _ _ all_ (to_ 1) (from_to 1 2) 0%nat 0%nat 1%nat 1%nat 1%nat 1%nat G2 ltac:(rd) ltac:(rd) ltac:(rd)) gsx Hgsx. cst3 Hgsx 1 HX.
    stg (slice3 g2 _ _ _ _ all_ (from_to 1 2) (from_to 1 2) 0%nat 1%nat 1%nat 1%nat 1%nat 1%nat G2 ltac:(rd) ltac:(rd) ltac:(rd)) gxx Hgxx. cst3 Hgxx 0 HX.
    stg (slice4 g3 _ _ _ _ _ all_ (to_ 1) (to_ 1) (to_ 1) 0%nat 0%nat 0%nat 0%nat 1%nat 1%nat 1%nat 1%nat G3 ltac:(rd) ltac:(rd) ltac:(rd) ltac:(rd)) gsss Hgsss. cst4 Hgsss 0 HX.
    stg (slice4 g3 _ _ _ _ _ all_ (to_ 1) (to_ 1) (from_to 1 2) 0%nat 0%nat 0%nat 1%nat 1%nat 1%nat 1%nat 1%nat G3 ltac:(rd) ltac:(rd) ltac:(rd) ltac:(rd)) gssx Hgssx. cst4 Hgssx 0 HX.
    stg (slice4 g3 _ _ _ _ _ all_ (to_ 1) (from_to 1 2) (from_to 1 2) 0%nat 0%nat 1%nat 1%nat 1%nat 1%nat 1%nat 1%nat G3 ltac:(rd) ltac:(rd) ltac:(rd) ltac:(rd)) gsxx Hgsxx. cst4 Hgsxx 0 HX.
    stg (slice4 g3 _ _ _ _ _ all_ (from_to 1 2) (from_to 1 2) (from_to 1 2) 0%nat 1%nat 1%nat 1%nat 1%nat 1%nat 1%nat 1%nat G3 ltac:(rd) ltac:(rd) ltac:(rd) ltac:(rd)) gxxx Hgxxx. cst4 Hgxxx 0 HX.
    stg (sdot23 _ _ _ _ _ _ _ _ Hgx HXss) gxXss HgxXss.
    stg (add3 _ _ _ _ _ _ _ HK2 HgxXss) V23 HV23. cst3 HV23 0 HX.
    stg (dot23 _ _ _ _ _ _ _ _ HX HV23) XV2 HXV2.
    stg (mdot322 _ _ _ _ _ _ _ _ _ _ _ HXss HP HP) XVV HXVV.
    stg (add3 _ _ _ _ _ _ _ HXV2 HXVV) V24 HV24. cst3 HV24 (-2/15) HX.
    destruct (stack3 V23 [V24] V24 _ _ _ _ _ _ ltac:(discriminate) eq_refl HV23 HV24) as (st1 & E1 & H1).
    destruct (stack3 (so_Xss so) [V23; V24] _ _ _ _ _ _ _ ltac:(discriminate) E1 HXss H1) as (st2 & E2 & H2).
    destruct (stack3 (nd_zeros [1; 1; 1]%nat) [so_Xss so; V23; V24] _ _ _ _ _ _ _ ltac:(discriminate) E2 (zeros3 1 1 1) H2) as (V2 & E3 & HV2).
    rewrite E3. cbn [bind]. clear E1 E2 E3 H1 H2. change (1 + (1 + (1 + 1)))%nat with 4%nat in HV2.
    assert (HV' : is3 V2 4 1 1 (fun i _ _ => match i with 1%nat => -8/15 | 3%nat => -2/15 | _ => 0 end)).
    { split; [exact (proj1 HV2)|]. intros i j k Hi Hj Hk. rewrite (proj2 HV2) by assumption. destruct i as [|[|[|[|i]]]]; try lia; repeat small; val; lra. }
    clear HV2. rename HV' into HV2.
    stg (sdot42 _ _ _ _ _ _ _ _ _ Hgssx HX) a1 Ha1.
    stg (mdot422 _ _ _ _ _ _ _ _ _ _ _ _ Hgsxx HX HX) a2 Ha2.
    stg (sdot33 _ _ _ _ _ _ _ _ _ Hgsx HXss) a3 Ha3.
    stg (add4 _ _ _ _ _ _ _ _ Hgsss (scale4 3 _ _ _ _ _ _ Ha1)) b1 Hb1.
    stg (add4 _ _ _ _ _ _ _ _ Hb1 (scale4 3 _ _ _ _ _ _ Ha2)) b2 Hb2.
    stg (add4 _ _ _ _ _ _ _ _ Hb2 (scale4 2 _ _ _ _ _ _ Ha3)) b3 Hb3.
    stg (mdot332 _ _ _ _ _ _ _ _ _ _ _ _ Hgxx HXss HX) a4 Ha4.
    stg (mdot4222 _ _ _ _ _ _ _ _ _ _ _ _ _ _ _ Hgxxx HX HX HX) a5 Ha5.
    stg (add4 _ _ _ _ _ _ _ _ (scale4 3 _ _ _ _ _ _ Ha4) Ha5) b4 Hb4.
    stg (add4 _ _ _ _ _ _ _ _ Hb3 Hb4) K3 HK3. cst4 HK3 (-16/15) HX.
    stg (mdot323 _ _ _ _ _ _ _ _ _ _ _ _ HXss HP HV23) l3 Hl3. cst4 Hl3 0 HX.
    stg (mdot4222 _ _ _ _ _ _ _ _ _ _ _ _ _ _ _ F3 HV HV HV) d1 Hd1. cst4 Hd1 0 HX.
    stg (mdot332 _ _ _ _ _ _ _ _ _ _ _ _ F2 HV2 HV) d2 Hd2. cst4 Hd2 0 HX.
    stg (sdot24 _ _ _ _ _ _ _ _ _ HL HK3) d3 Hd3.
    stg (add4 _ _ _ _ _ _ _ _ Hd1 (scale4 3 _ _ _ _ _ _ Hd2)) e1 He1.
    stg (add4 _ _ _ _ _ _ _ _ He1 Hd3) e2 He2.
    stg (sdot24 _ _ _ _ _ _ _ _ _ HfX (scale4 3 _ _ _ _ _ _ Hl3)) d4 Hd4.
    stg (add4 _ _ _ _ _ _ _ _ He2 Hd4) D HD. cst4 HD (-4/5) HX.
    destruct (one_sylvester _ _ _ _ _ _ _ 3 HA HfX HP (proj1 HD) ltac:(lia)) as (X & EX).
    { lra. }
    exists X. split; [exact EX|].
    destruct (sylvester4 _ _ _ _ _ _ _ _ _ _ _ _ gauss_exact (le_n 1) HA HfX HP HD EX) as (Hs & Hv).
    split; [exact (proj1 Hs)|]. intros i j k l Hi Hj Hk Hl. repeat small.
    specialize (Hv 0%nat 0%nat 0%nat 0%nat ltac:(lia) ltac:(lia) ltac:(lia) ltac:(lia)).
    cbn in Hv. lra.
  Qed.

  Lemma b3_third_risk : forall sigma X_sss, is2 sigma 1 1 (fun _ _ => 1) -> is4 X_sss 1 1 1 1 (fun _ _ _ _ => 32 / 155) ->
      exists X_stt, third_risk gauss_solve 1 1 1 f1 g1 f2 g2 f3 g3 sigma X_s so X_sss = Ok X_stt.
  Proof.
    intros sigma X_sss HS H3.
    pose proof (e_V13 _ _ _ _ _ _ _ _ _ _ HQ) as HP. pose proof (e_V1 _ _ _ _ _ _ _ _ _ _ HQ) as HV.
    pose proof (e_A _ _ _ _ _ _ _ _ _ _ HQ) as HA.
    pose proof (e_L _ _ _ _ _ _ _ _ _ _ HQ) as HL. pose proof (is3_self _ _ _ _ (e_Xss _ _ _ _ _ _ _ _ _ _ HQ)) as HXss.
    pose proof (is1_self _ _ (e_Xtt _ _ _ _ _ _ _ _ _ _ HQ)) as HXtt.
    change (1 + 1 + (1 + 1))%nat with 4%nat in HV.
    cst2 HP (1/2) HX. cst2 HA 4 HX.
    unfold third_risk. cbv zeta. change (1 + 1)%nat with 2%nat. change (2 + 1)%nat with 3%nat.
    stg (slice2 f1 _ _ _ all_ (from_ 3) 0%nat 3%nat 1%nat 1%nat F1 ltac:(rd) ltac:(rd)) fX HfX. cst2 HfX (-1) HX.
    stg (slice2 g1 _ _ _ all_ (from_to 1 2) 0%nat 1%nat 1%nat 1%nat G1 ltac:(rd) ltac:(rd)) gx Hgx.
    stg (slice2 g1 _ _ _ all_ (from_ 2) 0%nat 2%nat 1%nat 1%nat G1 ltac:(rd) ltac:(rd)) ge Hge.
    stg (slice3 g2 _ _ _ _ all_ (to_ 1) (from_to 1 2) 0%nat 0%nat 1%nat 1%nat 1%nat 1%nat G2 ltac:(rd) ltac:(rd) ltac:(rd)) gsx Hgsx.
    stg (slice3 g2 _ _ _ _ all_ (from_to 1 2) (from_to 1 2) 0%nat 1%nat 1%nat 1%nat 1%nat 1%nat G2 ltac:(rd) ltac:(rd) ltac:(rd)) gxx Hgxx.
    stg (slice3 g2 _ _ _ _ all_ (from_ 2) (from_ 2) 0%nat 2%nat 2%nat 1%nat 1%nat 1%nat G2 ltac:(rd) ltac:(rd) ltac:(rd)) gee Hgee.
    stg (slice3 g2 _ _ _ _ all_ (to_ 1) (from_ 2) 0%nat 0%nat 2%nat 1%nat 1%nat 1%nat G2 ltac:(rd) ltac:(rd) ltac:(rd)) gse Hgse.
    stg (slice3 g2 _ _ _ _ all_ (from_to 1 2) (from_ 2) 0%nat 1%nat 2%nat 1%nat 1%nat 1%nat G2 ltac:(rd) ltac:(rd) ltac:(rd)) gxe Hgxe.
    stg (slice4 g3 _ _ _ _ _ all_ (to_ 1) (from_ 2) (from_ 2) 0%nat 0%nat 2%nat 2%nat 1%nat 1%nat 1%nat 1%nat G3 ltac:(rd) ltac:(rd) ltac:(rd) ltac:(rd)) gsee Hgsee.
    stg (slice4 g3 _ _ _ _ _ all_ (from_to 1 2) (from_ 2) (from_ 2) 0%nat 1%nat 2%nat 2%nat 1%nat 1%nat 1%nat 1%nat G3 ltac:(rd) ltac:(rd) ltac:(rd) ltac:(rd)) gxee Hgxee.
    stg (dot22 _ _ _ _ _ _ _ HX Hge) Xge HXge.
    destruct (stack2 ge [Xge] Xge _ _ _ _ _ ltac:(discriminate) eq_refl Hge HXge) as (Wl & EW & HWl). rewrite EW. cbn [bind]. clear EW.
    stg (mdot322 _ _ _ _ _ _ _ _ _ _ _ Hgxe HX (eye2 1)) a1 Ha1.
    stg (add3 _ _ _ _ _ _ _ Hgse Ha1) Vsl HVsl.
    stg (mdot322 _ _ _ _ _ _ _ _ _ _ _ HXss HP Hge) a2 Ha2.
    stg (sdot23 _ _ _ _ _ _ _ _ HX HVsl) a3 Ha3.
    stg (add3 _ _ _ _ _ _ _ Ha2 Ha3) a4 Ha4.
    destruct (stack3 Vsl [a4] a4 _ _ _ _ _ _ ltac:(discriminate) eq_refl HVsl Ha4) as (Wsl & EW & HWsl). rewrite EW. cbn [bind]. clear EW.
    stg (slice4 f3 _ _ _ _ _ all_ all_ (from_ 2) (from_ 2) 0%nat 0%nat 2%nat 2%nat 1%nat 4%nat 2%nat 2%nat F3 ltac:(rd) ltac:(rd) ltac:(rd) ltac:(rd)) f3nn Hf3nn.
    stg (slice3 f2 _ _ _ _ all_ (from_ 2) (from_ 2) 0%nat 2%nat 2%nat 1%nat 2%nat 2%nat F2 ltac:(rd) ltac:(rd) ltac:(rd)) f2nn Hf2nn.
    stg (mdot4222 _ _ _ _ _ _ _ _ _ _ _ _ _ _ _ Hf3nn HV HWl HWl) k1 Hk1.
    stg (mdot332 _ _ _ _ _ _ _ _ _ _ _ _ Hf2nn HWsl HWl) k2 Hk2.
    stg (add4 _ _ _ _ _ _ _ _ Hk1 (scale4 2 _ _ _ _ _ _ Hk2)) k3 Hk3.
    stg (mdot322 _ _ _ _ _ _ _ _ _ _ _ HXss Hge Hge) s1 Hs1.
    stg (sdot23 _ _ _ _ _ _ _ _ HX Hgee) s2 Hs2.
    stg (add3 _ _ _ _ _ _ _ Hs1 Hs2) s3 Hs3.
    destruct (stack3 gee [s3] s3 _ _ _ _ _ _ ltac:(discriminate) eq_refl Hgee Hs3) as (SWll & EW & HSW). rewrite EW. cbn [bind]. clear EW.
    stg (dot21 _ _ _ _ _ _ Hgx HXtt) t1 Ht1.
    stg (sdot21 _ _ _ _ _ _ Hgx HXtt) t2 Ht2.
    stg (dot21 _ _ _ _ _ _ HX Ht2) t3 Ht3.
    stg (add1 _ _ _ _ _ Ht3 HXtt) t4 Ht4.
    destruct (stack1 t1 [t4] t4 _ _ _ _ ltac:(discriminate) eq_refl Ht1 Ht4) as (st1 & EW1 & HW1).
    destruct (stack1 (so_Xtt so) [t1; t4] st1 _ _ _ _ ltac:(discriminate) EW1 HXtt HW1) as (DWll & EW & HDW). rewrite EW. cbn [bind]. clear EW.
    stg (slice3 f2 _ _ _ _ all_ all_ (from_ 2) 0%nat 0%nat 2%nat 1%nat 4%nat 2%nat F2 ltac:(rd) ltac:(rd) ltac:(rd)) f2n Hf2n.
    stg (mdot323 _ _ _ _ _ _ _ _ _ _ _ _ Hf2n HV HSW) k4 Hk4.
    stg (add4 _ _ _ _ _ _ _ _ Hk3 Hk4) Kee HKee.
    stg (against4 _ _ _ _ _ _ _ HKee HS) q1 Hq1.
    stg (slice3 f2 _ _ _ _ all_ all_ (from_ 1) 0%nat 0%nat 1%nat 1%nat 4%nat 3%nat F2 ltac:(rd) ltac:(rd) ltac:(rd)) f2s Hf2s.
    stg (mdot321 _ _ _ _ _ _ _ _ _ _ Hf2s HV HDW) q2 Hq2.
    stg (add2 _ _ _ _ _ _ Hq1 Hq2) K_ HK_.
    stg (sdot31 _ _ _ _ _ _ _ Hgsx HXtt) m1 Hm1.
    stg (mdot321 _ _ _ _ _ _ _ _ _ _ Hgxx HX HXtt) m2 Hm2.
    stg (add2 _ _ _ _ _ _ Hm1 Hm2) m3 Hm3.
    stg (mdot4222 _ _ _ _ _ _ _ _ _ _ _ _ _ _ _ Hgxee HX (eye2 1) (eye2 1)) m4 Hm4.
    stg (add4 _ _ _ _ _ _ _ _ Hgsee Hm4) m5 Hm5.
    stg (against4 _ _ _ _ _ _ _ Hm5 HS) m6 Hm6.
    stg (add2 _ _ _ _ _ _ Hm3 Hm6) LL HLL.
    stg (mdot4222 _ _ _ _ _ _ _ _ _ _ _ _ _ _ _ H3 HP Hge Hge) n1 Hn1.
    stg (mdot332 _ _ _ _ _ _ _ _ _ _ _ _ HXss HVsl Hge) n2 Hn2.
    stg (add4 _ _ _ _ _ _ _ _ Hn1 (scale4 2 _ _ _ _ _ _ Hn2)) n3 Hn3.
    stg (against4 _ _ _ _ _ _ _ Hn3 HS) n4 Hn4.
    stg (against3 _ _ _ _ _ _ Hgee HS) n5 Hn5.
    stg (add1 _ _ _ _ _ Hn5 Ht2) n6 Hn6.
    stg (mdot321 _ _ _ _ _ _ _ _ _ _ HXss HP Hn6) n7 Hn7.
    stg (add2 _ _ _ _ _ _ Hn4 Hn7) M HM.
    stg (dot22 _ _ _ _ _ _ _ HL HLL) u1 Hu1.
    stg (dot22 _ _ _ _ _ _ _ HfX HM) u2 Hu2.
    stg (add2 _ _ _ _ _ _ HK_ Hu1) u3 Hu3.
    stg (add2 _ _ _ _ _ _ Hu3 Hu2) D HD.
    exact (one_sylvester _ _ _ _ _ _ _ 1 HA HfX HP (proj1 HD) (le_n 1) ltac:(lra)).
  Qed.
End Witness.

Definition b3_sigma : nda := Nda [1; 1]%nat (fun _ => 1).

Lemma b3_order3 : exists X_s X_ss X_sss X_tt X_stt,
    state_perturb b3_qz gauss_solve [b3_sigma; b3_f1; b3_f2; b3_f3] [b3_sigma; b3_g1; b3_g2; b3_g3] b3_sigma
      = Ok (Order3 X_s X_ss X_sss X_tt X_stt) /\
    coef2 X_s 0%nat 0%nat = 0 /\ coef3 X_ss 0%nat 0%nat 0%nat = -8/15 /\ coef4 X_sss 0%nat 0%nat 0%nat 0%nat = 32/155.
Proof.
  destruct b3_first as (X_s & E1 & HX).
  destruct (second_order_returns gauss_solve 1 1 1 b3_f1 b3_g1 b3_f2 b3_g2 b3_sigma X_s eq_refl eq_refl eq_refl eq_refl eq_refl (proj1 HX)) as (so & E2).
  - intros A B C D HA HB HC HD. apply (ex_sylvester _ _ _ _ _ _ _ _ HA HB HC HD).
    val. rewrite !(proj2 HX) by lia. cbn -[Rdiv]. lra.
  - intros L b HL. apply gauss_one. rewrite to_mat_get, (proj2 HL) by lia.
    val. rewrite ?(proj2 HX) by lia. cbn. lra.
  - pose proof (second_order_equations gauss_solve gauss_exact 1 1 1 b3_f1 b3_g1 b3_f2 b3_g2 b3_sigma X_s (le_n 1) eq_refl eq_refl eq_refl eq_refl eq_refl (proj1 HX) so E2) as HQ.
    pose proof (is2_self b3_f1 1 4 eq_refl) as F1. pose proof (is2_self b3_g1 1 3 eq_refl) as G1.
    pose proof (is3_self b3_f2 1 4 4 eq_refl) as F2. pose proof (is3_self b3_g2 1 3 3 eq_refl) as G2.
    assert (F3 : is4 b3_f3 1 4 4 4 (fun _ _ _ _ => 0)) by (split; reflexivity).
    assert (G3 : is4 b3_g3 1 3 3 3 (fun _ _ _ _ => 0)) by (split; reflexivity).
    destruct (b3_third_states _ _ _ _ _ _ F1 G1 F2 G2 F3 G3 X_s HX so HQ) as (X_sss & E3 & H3).
    destruct (b3_third_risk _ _ _ _ _ _ F1 G1 F2 G2 F3 G3 X_s HX so HQ b3_sigma X_sss) as (X_stt & E4); [split; reflexivity|exact H3|].
    exists X_s, (so_Xss so), X_sss, (so_Xtt so), X_stt.
    split; [|split; [exact (proj2 HX 0%nat 0%nat (le_n 1) (le_n 1))|split; [exact (b3_Xss X_s HX so HQ)|exact (proj2 H3 0%nat 0%nat 0%nat 0%nat (le_n 1) (le_n 1) (le_n 1) (le_n 1))]]].
    unfold state_perturb. cbn [length Nat.eqb negb]. change (shape b3_f1) with [1; 4]%nat. change (shape b3_g1) with [1; 3]%nat. cbv beta iota.
    change (4 / 2)%nat with 2%nat. cbn [Nat.ltb Nat.leb Nat.sub].
    rewrite E1. cbn [bind]. rewrite E2. cbn [bind]. rewrite E3. cbn [bind]. rewrite E4. reflexivity.
Qed.

Lemma b3_f_expands : expands3 4 1 b3_f (coef2 b3_f1) (coef3 b3_f2) (coef4 b3_f3).
Proof.
  exists 0, 1. split; [lra|]. intros u _ i Hi. rewrite Rmult_0_l. right.
  match goal with |- Rabs ?e = 0 => replace e with 0; [apply Rabs_R0|] end.
  unfold poly3, poly2, lin, bil, tri, b3_f, coef2, coef3, coef4. cbn. field.
Qed.
Lemma b3_g_expands : expands3 3 1 b3_g (coef2 b3_g1) (coef3 b3_g2) (coef4 b3_g3).
Proof.
  exists 0, 1. split; [lra|]. intros u _ i Hi. rewrite Rmult_0_l. right.
  match goal with |- Rabs ?e = 0 => replace e with 0; [apply Rabs_R0|] end.
  unfold poly3, poly2, lin, bil, tri, b3_g, coef2, coef3, coef4. cbn. field.
Qed.
Lemma b3_g_symmetric : symmetric2 1 3 (coef3 b3_g2).
Proof. intros i j k _ Hj Hk. destruct j as [|[|[|j]]]; try lia; destruct k as [|[|[|k]]]; try lia; reflexivity. Qed.

Definition b3_p : vector := fun _ => 1 / 2.
Definition b3_eps : nat -> vector := fun k _ => if Nat.eqb k 0 then 1 else -1.
Lemma b3_shocks : shocks 2 1 b3_p b3_eps (coef2 b3_sigma).
Proof. unfold b3_p, b3_eps. constructor; cbn; intros; unfold coef2; cbn; lra. Qed.

Lemma b3_residual : forall X_s X_ss X_sss X_tt X_stt t,
    X_s 0%nat 0%nat = 0 -> X_ss 0%nat 0%nat 0%nat = -8/15 -> X_sss 0%nat 0%nat 0%nat 0%nat = 32/155 ->
    let w := - 4 / 15 + 16 / 465 * t in
    residual 1 1 2 b3_p b3_eps b3_f b3_g (rule3 1 X_s X_ss X_sss X_tt X_stt) (fun j => t * 1) (t * 0) 0%nat =
    t ^ 3 * (- (1 / 15) + t * (4 / 155 - (- 4 / 15 * (w + w * w * (t * t)) + 16 / 465 * (3 / 4 * (t * w) + 3 / 2 * (t * t * t * (w * w)) + t * t * t * t * t * (w * w * w))))).
Proof.
  intros X_s X_ss X_sss X_tt X_stt t E1 E2 E3 w. unfold w.
  unfold residual, rule3, poly3, poly2, lin, bil, tri, b3_f, b3_g, glue, b3_p, b3_eps. cbn -[Rdiv]. rewrite E1, E2, E3. field.
Qed.

Lemma Rabs_mult_1 : forall a b, Rabs a <= 1 -> Rabs b <= 1 -> Rabs (a * b) <= 1.
Proof. intros. rewrite Rabs_mult. pose proof (Rabs_pos a). pose proof (Rabs_pos b). nra. Qed.
Lemma Rabs_le_inv' : forall a c, Rabs a <= c -> - c <= a <= c.
Proof. intros a c H. unfold Rabs in H. destruct (Rcase_abs a); lra. Qed.

Lemma b3_inaccurate : forall X_s X_ss X_sss X_tt X_stt,
    X_s 0%nat 0%nat = 0 -> X_ss 0%nat 0%nat 0%nat = -8/15 -> X_sss 0%nat 0%nat 0%nat 0%nat = 32/155 ->
    ~ accurate 4 1 1 2 b3_p b3_eps b3_f b3_g (rule3 1 X_s X_ss X_sss X_tt X_stt).
Proof.
  intros X_s X_ss X_sss X_tt X_stt E1 E2 E3 H. destruct (H (fun _ => 1) 0) as (K & d & Hd & HK).
  pose (B := Rmax K 0). assert (HB0 : 0 <= B) by apply Rmax_r. assert (HBK : K <= B) by apply Rmax_l.
  pose (t := Rmin (Rmin d 1) (/ (30 * (B + 3)))).
  assert (Hpos : 0 < / (30 * (B + 3))) by (apply Rinv_0_lt_compat; lra).
  assert (Ht0 : 0 < t) by (unfold t; repeat apply Rmin_glb_lt; lra).
  assert (Htd : t <= d) by (eapply Rle_trans; [apply Rmin_l|apply Rmin_l]).
  assert (Ht1 : t <= 1) by (eapply Rle_trans; [apply Rmin_l|apply Rmin_r]).
  assert (HtB : t * (30 * (B + 3)) <= 1).
  { apply Rle_trans with (/ (30 * (B + 3)) * (30 * (B + 3))).
    - apply Rmult_le_compat_r; [lra|]. apply Rmin_r.
    - right. field. lra. }
  clearbody t. specialize (HK t ltac:(rewrite Rabs_pos_eq; lra) 0%nat (le_n 1)).
  rewrite (b3_residual X_s X_ss X_sss X_tt X_stt t E1 E2 E3) in HK. cbv zeta in HK.
  set (w := - 4 / 15 + 16 / 465 * t) in HK.
  assert (Hw : Rabs w <= 1) by (apply Rabs_le; unfold w; lra).
  assert (Hta : Rabs t <= 1) by (rewrite Rabs_pos_eq; lra).
  assert (A1 : Rabs (w * w * (t * t)) <= 1) by (repeat apply Rabs_mult_1; assumption).
  assert (A2 : Rabs (t * w) <= 1) by (repeat apply Rabs_mult_1; assumption).
  assert (A3 : Rabs (t * t * t * (w * w)) <= 1) by (repeat apply Rabs_mult_1; assumption).
  assert (A4 : Rabs (t * t * t * t * t * (w * w * w)) <= 1) by (repeat apply Rabs_mult_1; assumption).
  apply Rabs_le_inv' in Hw, A1, A2, A3, A4.
  match type of HK with context [_ + t * ?q] => assert (Hq : -3 <= q <= 3) by lra; set (Q := q) in HK, Hq; clearbody Q end.
  rewrite Rabs_mult, <- RPow_abs, (Rabs_pos_eq t) in HK by lra.
  assert (Hneg : Rabs (- (1 / 15) + t * Q) >= 1 / 15 - 3 * t).
  { assert (t * Q <= t * 3) by (apply Rmult_le_compat_l; lra). unfold Rabs. destruct (Rcase_abs _); lra. }
  assert (H3 : 0 < t ^ 3) by (apply pow_lt; exact Ht0).
  assert (t ^ 3 * (1 / 15 - 3 * t) <= t ^ 3 * (B * t)).
  { apply Rle_trans with (t ^ 3 * Rabs (- (1 / 15) + t * Q)); [apply Rmult_le_compat_l; lra|].
    eapply Rle_trans; [exact HK|]. replace (K * t ^ 4) with (t ^ 3 * (K * t)) by ring. apply Rmult_le_compat_l; [lra|]. apply Rmult_le_compat_r; lra. }
  apply Rmult_le_reg_l in H0; [|exact H3]. nra.
Qed.

(** The rule the definition asks for: with 48/155 in place of 32/155 the residual without risk is of order 4. *)
Lemma b3_repaired : forall X_s X_ss X_sss X_tt X_stt t,
    X_s 0%nat 0%nat = 0 -> X_ss 0%nat 0%nat 0%nat = -8/15 -> X_sss 0%nat 0%nat 0%nat 0%nat = 48/155 ->
    let w := - 4 / 15 + 8 / 155 * t in
    residual 1 1 2 b3_p b3_eps b3_f b3_g (rule3 1 X_s X_ss X_sss X_tt X_stt) (fun j => t * 1) (t * 0) 0%nat =
    t ^ 4 * (6 / 155 - (- 4 / 15 * (w + w * w * (t * t)) + 8 / 155 * (3 / 4 * (t * w) + 3 / 2 * (t * t * t * (w * w)) + t * t * t * t * t * (w * w * w)))).
Proof.
  intros X_s X_ss X_sss X_tt X_stt t E1 E2 E3 w. unfold w.
  unfold residual, rule3, poly3, poly2, lin, bil, tri, b3_f, b3_g, glue, b3_p, b3_eps. cbn -[Rdiv]. rewrite E1, E2, E3. field.
Qed.

Theorem order3_inaccurate : exists sol X_s X_ss X_sss X_tt X_stt,
    state_perturb b3_qz gauss_solve [b3_sigma; b3_f1; b3_f2; b3_f3] [b3_sigma; b3_g1; b3_g2; b3_g3] b3_sigma = Ok sol /\
    sol = Order3 X_s X_ss X_sss X_tt X_stt /\
    ~ accurate 4 1 1 2 b3_p b3_eps b3_f b3_g (rule3 1 (coef2 X_s) (coef3 X_ss) (coef4 X_sss) (vec_of X_tt) (coef2 X_stt)).
Proof.
  destruct b3_order3 as (X_s & X_ss & X_sss & X_tt & X_stt & E & E1 & E2 & E3).
  exists (Order3 X_s X_ss X_sss X_tt X_stt), X_s, X_ss, X_sss, X_tt, X_stt.
  split; [exact E|]. split; [reflexivity|]. exact (b3_inaccurate _ _ _ _ _ E1 E2 E3).
Qed.
