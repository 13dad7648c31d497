(** Two states: s1' = s1/2 + eps, s2' = s2/2 + s1^2, 4 x - x' - 21/8 s2 + s1 x' = 0.  The product of X_s and the
    second derivatives of the states of the next period is taken along the wrong axis, and the terms of order
    three are wrong although states and controls do not interact in the transition. *)
From Coq Require Import Reals List Arith Lia Lra.
From Verif.Base Require Import Prelude Ext Sums Arrays Nda.
From Verif.Spec Require Import LinearAlgebra Perturbation HigherOrder.
From Verif.Model Require Import DecisionRule Perturbation LinearSolve Tensor MatrixEquations HigherOrder.
From Verif.Proofs Require Import MatrixAlgebra PerturbationFinal MatrixEquationsProofs HigherOrderOps HigherOrderProofs HigherOrderFinal HigherOrderThird
  HigherOrderRun3.
Import ListNotations.
Open Scope R_scope.

Definition w3_f1 : nda := Nda [1; 6]%nat (fun idx => match idx with [_; 1%nat] => -21/8 | [_; 2%nat] => 4 | [_; 5%nat] => -1 | _ => 0 end).
Definition w3_f2 : nda := Nda [1; 6; 6]%nat (fun idx => match idx with [_; 0%nat; 5%nat] | [_; 5%nat; 0%nat] => 1 | _ => 0 end).
Definition w3_f3 : nda := Nda [1; 6; 6; 6]%nat (fun _ => 0).
Definition w3_g1 : nda := Nda [2; 4]%nat (fun idx => match idx with [0%nat; 0%nat] => 1/2 | [0%nat; 3%nat] => 1 | [1%nat; 1%nat] => 1/2 | _ => 0 end).
Definition w3_g2 : nda := Nda [2; 4; 4]%nat (fun idx => match idx with [1%nat; 0%nat; 0%nat] => 2 | _ => 0 end).
Definition w3_g3 : nda := Nda [2; 4; 4; 4]%nat (fun _ => 0).
Definition w3_f : vector -> vector := fun u _ => 4 * u 2%nat - u 5%nat - 21/8 * u 1%nat + u 0%nat * u 5%nat.
Definition w3_g : vector -> vector := fun u i => match i with 0%nat => u 0%nat / 2 + u 3%nat | _ => u 1%nat / 2 + u 0%nat ^ 2 end.
Definition w3_T : matR := fun i j => match i, j with
  | 0%nat, 0%nat => 1/2 | 1%nat, 1%nat => 1/2 | 1%nat, 2%nat => 21/8 | 2%nat, 2%nat => 4 | _, _ => 0 end.
Definition w3_Z : matR := fun i j => match i, j with
  | 0%nat, 0%nat => 1 | 1%nat, 1%nat => 4/5 | 1%nat, 2%nat => -3/5 | 2%nat, 1%nat => 3/5 | 2%nat, 2%nat => 4/5 | _, _ => 0 end.
Definition w3_qz : nat -> matR -> matR -> ext -> res (matR * matR * matR * matR) := fun _ _ _ _ => Ok (eye, w3_T, w3_Z, w3_Z).

Ltac num := cbv -[Rplus Rmult Ropp Rinv IZR Rminus Rdiv at_ so_Xss so_Xtt].

Lemma w3_schur : schur_routine 2 1 w3_f1 w3_g1 w3_qz.
Proof.
  intros c S T Q Z H. unfold w3_qz in H. apply Ok_inj in H. injection H as <- <- <- <-. split; [|split].
  - split; intros i j Hi Hj; change (2 + 1)%nat with 3%nat in Hi, Hj; destruct i as [|[|[|i]]]; try lia; destruct j as [|[|[|j]]]; try lia;
      cbv -[Rplus Rmult Ropp Rinv IZR Rminus Rdiv]; lra.
  - intros i j Hp Hi Hj. unfold eye. destruct (Nat.eqb_spec i j); [lia|reflexivity].
  - intros i j Hp Hi Hj. assert (i = 2)%nat as -> by lia. destruct j as [|[|j]]; try lia; reflexivity.
Qed.

Lemma columns_total : forall n A B, ~ singular n A -> exists X, solve_columns gauss_solve n A B = Ok X.
Proof.
  intros n A B HA. unfold solve_columns. generalize (fun _ _ : nat => 0).
  assert (G : forall k X0, exists X, for_range_res k (fun j X =>
      bind (gauss_solve n A (fun i => B i j)) (fun x => Ok (fun i k => if Nat.eqb k j then x i else X i k))) X0 = Ok X).
  { induction k as [|k IH]; intros X0; cbn [for_range_res]; [eexists; reflexivity|].
    destruct (IH X0) as (X & ->). cbn [bind].
    pose proof (GaussFinal.gauss_solve_correct n A (fun i => B i k)) as K. destruct (gauss_solve n A (fun i => B i k)) as [x|e]; [|contradiction].
    cbn [bind]. eexists. reflexivity. }
  intros X0. apply G.
Qed.

Lemma w3_Z_nonsingular : ~ singular 2 (fun a b => w3_Z b a).
Proof.
  apply triangular_nonsingular.
  - intros i j Hl Hi. assert (i = 1 /\ j = 0)%nat as (-> & ->) by lia. reflexivity.
  - intros i Hi. destruct i as [|[|i]]; try lia; cbn; lra.
Qed.

Lemma w3_first : exists X_s, first_order w3_qz gauss_solve 2 1 w3_f1 w3_g1 = Ok X_s /\ is2 X_s 1 2 (fun _ j => match j with 0%nat => 0 | _ => 3/4 end).
Proof.
  assert (exists X_s, first_order w3_qz gauss_solve 2 1 w3_f1 w3_g1 = Ok X_s) as (X_s & E).
  { unfold first_order, w3_qz. cbv zeta. cbn [bind].
    rewrite pairs_ok_ones by (intros i _; unfold eye; rewrite Nat.eqb_refl; reflexivity). cbn [negb].
    assert (Eb : bk_check 2 1 (eigval eye w3_T) = Ok true).
    { unfold bk_check. cbn [Nat.eqb seq].
      rewrite (proj2 (existsb_exists _ _ : some_above _ _ = true <-> _)).
      + f_equal. apply existsb_exists. exists 2%nat. split; [cbn; auto|].
        rewrite (eigval_fin _ _ _ (1/4)); [| |].
        * unfold ext_ltb. cbn. destruct (Rle_dec 1 (1 / 4)); [lra|reflexivity].
        * cbn. lra.
        * cbn. unfold eye. cbn. rewrite Rabs_pos_eq; lra.
      + exists 0%nat. split; [cbn; auto|]. rewrite (eigval_fin _ _ _ 2).
        * cbn. destruct (Rle_dec 1 2); [reflexivity|lra].
        * cbn. lra.
        * cbn. unfold eye. cbn. rewrite Rabs_pos_eq; lra. }
    rewrite Eb. cbn [bind]. unfold first_rule.
    destruct (rule_matrix_total 2 1 w3_Z w3_Z_nonsingular) as (C & EC). rewrite EC. cbn [bind].
    destruct (columns_total 2 (fun i j => eye j i) (fun i j => w3_Z j i)) as (X & EX).
    { apply triangular_nonsingular; intros i; [intros j Hl _; unfold eye; destruct (Nat.eqb_spec j i); [lia|reflexivity]|intros _; unfold eye; rewrite Nat.eqb_refl; lra]. }
    rewrite EX. cbn [bind].
    destruct (columns_total 2 (fun i j => w3_Z j i) (fun i j => w3_T j i) w3_Z_nonsingular) as (Y & EY). rewrite EY. cbn [bind].
    eexists. reflexivity. }
  exists X_s. split; [exact E|].
  destruct (first_order_solves w3_qz gauss_solve gauss_exact 2 1 w3_f1 w3_g1 w3_schur X_s E) as (_ & _ & Hs & Hl).
  split; [exact Hs|]. intros i j Hi Hj. assert (i = 0)%nat as -> by lia.
  pose proof (Hl 0%nat 0%nat ltac:(lia) ltac:(lia)) as H0. pose proof (Hl 0%nat 1%nat ltac:(lia) ltac:(lia)) as H1. clear Hl.
  cbv -[Rplus Rmult Ropp Rinv IZR Rminus Rdiv at_ w3_f1 w3_g1] in H0, H1. cbn -[Rdiv] in H0, H1.
  destruct j as [|[|j]]; try lia; lra.
Qed.

(** Sylvester equations with C a multiple of the identity. *)
Lemma kron_scalar : forall A C a c, (1 <= nrow C)%nat -> ncol C = nrow C ->
    (forall i j, (i < nrow A)%nat -> (j < nrow A)%nat -> mget A i j = a * eye i j) ->
    (forall i j, (i < nrow C)%nat -> (j < nrow C)%nat -> mget C i j = c * eye i j) ->
    forall i j, (i < nrow A * nrow C)%nat -> (j < nrow A * nrow C)%nat -> mget (kron A C) i j = a * c * eye i j.
Proof.
  intros A C a c Hp Hc HA HC i j Hi Hj. unfold kron. cbn [mget]. rewrite Hc.
  set (n := nrow C) in *.
  assert (Di : (i / n < nrow A)%nat) by (apply Nat.div_lt_upper_bound; lia).
  assert (Dj : (j / n < nrow A)%nat) by (apply Nat.div_lt_upper_bound; lia).
  rewrite HA by assumption. rewrite HC by (apply Nat.mod_upper_bound; lia).
  unfold eye. pose proof (Nat.div_mod i n ltac:(lia)) as Ei. pose proof (Nat.div_mod j n ltac:(lia)) as Ej.
  destruct (Nat.eqb_spec i j) as [->|Hne].
  - rewrite !Nat.eqb_refl. ring.
  - destruct (Nat.eqb_spec (i / n) (j / n)) as [E1|E1]; [|ring]. destruct (Nat.eqb_spec (i mod n) (j mod n)) as [E2|E2]; [|ring].
    exfalso. apply Hne. rewrite Ei, Ej, E1, E2. reflexivity.
Qed.
Lemma kron_more_scalar : forall t A C a c, (1 <= nrow C)%nat -> ncol C = nrow C ->
    (forall i j, (i < nrow A)%nat -> (j < nrow A)%nat -> mget A i j = a * eye i j) ->
    (forall i j, (i < nrow C)%nat -> (j < nrow C)%nat -> mget C i j = c * eye i j) ->
    forall i j, (i < nrow A * nrow C ^ t)%nat -> (j < nrow A * nrow C ^ t)%nat -> mget (kron_more A C t) i j = a * c ^ t * eye i j.
Proof.
  induction t as [|t IH]; intros A C a c Hp Hc HA HC i j Hi Hj; cbn [kron_more pow Nat.pow] in *.
  - rewrite Nat.mul_1_r in Hi, Hj. rewrite HA by assumption. ring.
  - rewrite (IH (kron A C) C (a * c) c Hp Hc).
    + ring.
    + apply kron_scalar; assumption.
    + exact HC.
    + unfold kron. cbn [nrow]. lia.
    + unfold kron. cbn [nrow]. lia.
Qed.
Lemma kron_power_scalar : forall C c v d, (1 <= v)%nat -> (1 <= d)%nat -> nrow C = v -> ncol C = v ->
    (forall i j, (i < v)%nat -> (j < v)%nat -> mget C i j = c * eye i j) ->
    forall i j, (i < v ^ d)%nat -> (j < v ^ d)%nat -> mget (kron_power C d) i j = c ^ d * eye i j.
Proof.
  intros C c v d Hv Hd Hr Hc HC i j Hi Hj. unfold kron_power. subst v. destruct d as [|[|d]]; [lia| |]; cbn [Nat.eqb].
  - cbn [Nat.sub kron_more]. cbn [Nat.pow] in Hi, Hj. rewrite Nat.mul_1_r in Hi, Hj. rewrite HC by assumption. cbn [pow]. ring.
  - replace (S (S d) - 2)%nat with d by lia. cbn [Nat.pow] in Hi, Hj.
    rewrite (kron_more_scalar d (kron C C) C (c * c) c Hv Hc).
    + cbn [pow]. ring.
    + apply kron_scalar; assumption.
    + exact HC.
    + unfold kron. cbn [nrow]. lia.
    + unfold kron. cbn [nrow]. lia.
Qed.

Lemma scalar_sylvester : forall A B C D FA FB FC c v d, (1 <= v)%nat -> is2 A 1 1 FA -> is2 B 1 1 FB -> is2 C v v FC ->
    (forall i j, (i < v)%nat -> (j < v)%nat -> FC i j = c * eye i j) -> shape D = 1%nat :: repeat v d -> (1 <= d)%nat ->
    FA 0%nat 0%nat + FB 0%nat 0%nat * c ^ d <> 0 ->
    exists X, solve_sylvester gauss_solve (to_mat A) (to_mat B) (to_mat C) D = Ok X.
Proof.
  intros A B C D FA FB FC c v d Hv HA HB HC Hc HD Hd Hne.
  apply (sylvester_returns (to_mat A) (to_mat B) (to_mat C) D 1 v d (to_mat_dims _ _ _ _ HA) (to_mat_dims _ _ _ _ HB) (to_mat_dims _ _ _ _ HC) HD Hd Hv).
  rewrite Nat.mul_1_l. destruct (to_mat_dims _ _ _ _ HC) as (Cr & Cc).
  assert (K : forall i j, (i < v ^ d)%nat -> (j < v ^ d)%nat -> sylvester_matrix (v ^ d) (to_mat A) (to_mat B) (kron_power (to_mat C) d) i j
      = (FA 0%nat 0%nat + FB 0%nat 0%nat * c ^ d) * eye j i).
  { intros i j Hi Hj. unfold sylvester_matrix. rewrite !(Nat.div_small) by assumption. rewrite !(Nat.mod_small) by assumption.
    rewrite !to_mat_get, (proj2 HA), (proj2 HB) by lia.
    rewrite (kron_power_scalar (to_mat C) c v d Hv Hd Cr Cc) by (assumption || (intros; rewrite to_mat_get, (proj2 HC) by assumption; apply Hc; assumption)).
    ring. }
  apply triangular_nonsingular.
  - intros i j Hl Hi. rewrite K by lia. unfold eye. destruct (Nat.eqb_spec j i); [lia|ring].
  - intros i Hi. rewrite K by assumption. unfold eye. rewrite Nat.eqb_refl. lra.
Qed.

Lemma w3_P : forall X_s i j, (i < 2)%nat -> (j < 2)%nat -> c_P 2 1 w3_g1 X_s i j = 1/2 * eye i j.
Proof. intros X_s i j Hi Hj. destruct i as [|[|i]]; try lia; destruct j as [|[|j]]; try lia; unfold c_P, c_gs, c_gx, w3_g1, eye; cbn -[Rdiv]; lra. Qed.
Lemma w3_A : forall X_s, c_A 2 1 w3_f1 w3_g1 X_s 0%nat 0%nat = 4.
Proof. intros X_s. unfold c_A, c_L, c_fx, c_fS, c_fX, c_gx, w3_g1, w3_f1. cbn -[Rdiv]. lra. Qed.
Lemma w3_fX : c_fX 2 1 w3_f1 0%nat 0%nat = -1.
Proof. reflexivity. Qed.

Section Witness.
  Variable X_s : nda.
  Hypothesis HX : is2 X_s 1 2 (fun _ j => match j with 0%nat => 0 | _ => 3/4 end).
  Let X00 : at_ X_s [0; 0]%nat = 0.
  Proof. rewrite (proj2 HX) by lia. reflexivity. Qed.
  Let X01 : at_ X_s [0; 1]%nat = 3/4.
  Proof. rewrite (proj2 HX) by lia. reflexivity. Qed.

  Definition w3_V (i j : nat) : R := match i, j with
    | 0%nat, 0%nat => 1 | 1%nat, 1%nat => 1 | 2%nat, 1%nat => 3/4 | 3%nat, 0%nat => 1/2 | 4%nat, 1%nat => 1/2 | 5%nat, 1%nat => 3/8 | _, _ => 0 end.
  Lemma w3_V_eq : forall i j, (i < 6)%nat -> (j < 2)%nat -> c_V 2 1 w3_g1 X_s i j = w3_V i j.
  Proof.
    intros i j Hi Hj. unfold c_V, above.
    destruct i as [|[|[|[|[|[|i]]]]]]; try lia; destruct j as [|[|j]]; try lia; cbn -[Rdiv]; unfold eye, c_XP; cbn -[Rdiv c_P];
      rewrite ?w3_P by lia; unfold c_X, eye; cbn -[Rdiv]; rewrite ?X00, ?X01; lra.
  Qed.
  Lemma w3_K2 : forall i j k, (i < 2)%nat -> (j < 2)%nat -> (k < 2)%nat -> c_K2 2 1 w3_g2 X_s i j k = match i, j, k with 1%nat, 0%nat, 0%nat => 2 | _, _, _ => 0 end.
  Proof.
    intros i j k Hi Hj Hk. unfold c_K2. destruct i as [|[|i]]; try lia; destruct j as [|[|j]]; try lia; destruct k as [|[|k]]; try lia; cbn -[Rdiv]; lra.
  Qed.
  Lemma w3_L : forall j, (j < 2)%nat -> c_L 2 1 w3_f1 X_s 0%nat j = match j with 0%nat => 0 | _ => -3/4 end.
  Proof. intros j Hj. unfold c_L, c_fS, c_fX, c_X. destruct j as [|[|j]]; try lia; cbn -[Rdiv]; rewrite ?X00, ?X01; lra. Qed.

  Variable so : second.
  Hypothesis HQ : equations2 2 1 1 w3_f1 w3_g1 w3_f2 w3_g2 (Nda [1; 1]%nat (fun _ => 1)) X_s so.

  Lemma w3_Xss : forall j k, (j < 2)%nat -> (k < 2)%nat -> at_ (so_Xss so) [0%nat; j; k] = match j, k with 0%nat, 0%nat => 2/5 | 1%nat, 1%nat => 0 | _, _ => -1/10 end.
  Proof.
    intros j k Hj Hk. pose proof (e_ss _ _ _ _ _ _ _ _ _ _ HQ 0%nat j k ltac:(lia) Hj Hk) as H.
    assert (ED : c_D 2 1 w3_f1 w3_g1 w3_f2 w3_g2 X_s 0 j k = (w3_V 0 j * w3_V 5 k + w3_V 5 j * w3_V 0 k) - 3/4 * match j, k with 0%nat, 0%nat => 2 | _, _ => 0 end).
    { unfold c_D, Rminus. apply f_equal2.
      - rewrite (rsum_ext _ _ (fun a => rsum 6 (fun b => at_ w3_f2 [0%nat; a; b] * w3_V a j * w3_V b k))).
        + unfold w3_f2. cbn -[w3_V]. ring.
        + intros a Ha. apply rsum_ext. intros b Hb. rewrite !w3_V_eq by assumption. reflexivity.
      - cbn [rsum Nat.add]. rewrite !w3_L, !w3_K2 by lia. destruct j as [|[|j]]; try lia; destruct k as [|[|k]]; try lia; cbn -[Rdiv]; lra. }
    rewrite ED in H. cbn [rsum] in H. rewrite w3_A, w3_fX, !w3_P in H by lia. clear ED.
    destruct j as [|[|j]]; try lia; destruct k as [|[|k]]; try lia; unfold eye, w3_V in H; cbn -[Rdiv] in H; lra.
  Qed.

  Let Xss : nat -> nat -> nat -> R := fun i j k => at_ (so_Xss so) [i; j; k].
  Lemma w3_V23 : forall i j k, (i < 2)%nat -> (j < 2)%nat -> (k < 2)%nat ->
      d_V23 2 1 w3_g1 w3_g2 X_s Xss i j k = match i, j, k with 1%nat, 0%nat, 0%nat => 2 | _, _, _ => 0 end.
  Proof.
    intros i j k Hi Hj Hk. unfold d_V23. rewrite w3_K2 by assumption. cbn [rsum].
    replace (c_gx 2 w3_g1 i 0) with 0 by (destruct i as [|[|i]]; try lia; reflexivity). ring.
  Qed.
  (** The derivative coded is 1/10; the one meant is 3/2 + 1/10. *)
  Lemma w3_V24 : d_V24 2 1 w3_g1 w3_g2 X_s Xss 0 0 0 = 1/10.
  Proof.
    unfold d_V24, d_XV2. cbn [rsum]. rewrite !w3_V23, !w3_P by lia. unfold Xss. rewrite !w3_Xss by lia. unfold c_X, eye. rewrite X00, X01. cbn -[Rdiv]. lra.
  Qed.
  Lemma w3_D3 : d_D3 2 1 w3_f1 w3_g1 w3_f2 w3_g2 w3_f3 w3_g3 X_s Xss 0 0 0 0 = 3/5.
  Proof.
    unfold d_D3.
    rewrite (rsum_0 _ (fun a => rsum _ (fun b => rsum _ (fun c => at_ w3_f3 _ * _ * _ * _)))).
    2: { intros a _. apply rsum_0. intros b _. apply rsum_0. intros c _. unfold w3_f3. cbn [at_]. ring. }
    assert (E2 : rsum (2 + 1 + (2 + 1)) (fun a => rsum (2 + 1 + (2 + 1)) (fun b => at_ w3_f2 [0%nat; a; b] * d_V2 2 1 w3_g1 w3_g2 X_s Xss a 0 0 * c_V 2 1 w3_g1 X_s b 0)) = 1/10).
    { rewrite (rsum_ext _ _ (fun a => rsum 6 (fun b => at_ w3_f2 [0%nat; a; b] * d_V2 2 1 w3_g1 w3_g2 X_s Xss a 0 0 * w3_V b 0))).
      - rewrite <- w3_V24. unfold w3_f2. cbn -[d_V2 w3_V]. unfold w3_V. change (d_V2 2 1 w3_g1 w3_g2 X_s Xss 0 0 0) with 0.
        change (d_V2 2 1 w3_g1 w3_g2 X_s Xss 5 0 0) with (d_V24 2 1 w3_g1 w3_g2 X_s Xss 0 0 0). ring.
      - intros a Ha. apply rsum_ext. intros b Hb. rewrite w3_V_eq by (assumption || lia). reflexivity. }
    rewrite E2. clear E2.
    cbn [rsum]. rewrite !w3_V23, !w3_P, w3_fX by lia. unfold Xss at 3 4 5 6. 
    assert (EK : forall a, (a < 2)%nat -> d_K3 2 1 w3_g2 w3_g3 X_s Xss a 0 0 0 = 0).
    { intros a Ha. unfold d_K3, w3_g3, w3_g2. destruct a as [|[|a]]; try lia; cbn -[Rdiv]; lra. }
    rewrite !EK by lia. unfold Xss. rewrite !w3_Xss by lia. unfold eye. cbn -[Rdiv]. lra.
  Qed.
End Witness.

Definition w3_sigma : nda := Nda [1; 1]%nat (fun _ => 1).

Lemma w3_order3 : exists X_s X_ss X_sss X_tt X_stt,
    state_perturb w3_qz gauss_solve [w3_sigma; w3_f1; w3_f2; w3_f3] [w3_sigma; w3_g1; w3_g2; w3_g3] w3_sigma
      = Ok (Order3 X_s X_ss X_sss X_tt X_stt) /\
    coef2 X_s 0%nat 0%nat = 0 /\ coef2 X_s 0%nat 1%nat = 3/4 /\
    coef3 X_ss 0%nat 0%nat 0%nat = 2/5 /\ coef3 X_ss 0%nat 0%nat 1%nat = -1/10 /\ coef3 X_ss 0%nat 1%nat 0%nat = -1/10 /\ coef3 X_ss 0%nat 1%nat 1%nat = 0 /\
    coef4 X_sss 0%nat 0%nat 0%nat 0%nat = -24/155.
Proof.
  destruct w3_first as (X_s & E1 & HX). pose proof (proj1 HX) as Hs.
  destruct (second_order_returns gauss_solve 2 1 1 w3_f1 w3_g1 w3_f2 w3_g2 w3_sigma X_s eq_refl eq_refl eq_refl eq_refl eq_refl Hs) as (so & Eso).
  - intros A B C D HA HB HC HD.
    destruct (scalar_sylvester A B C D _ _ _ (1/2) 2 2 ltac:(lia) HA HB HC (w3_P X_s) (proj1 HD) ltac:(lia)) as (X & EX).
    { rewrite w3_A, w3_fX. lra. }
    exists X. split; [exact EX|]. destruct (sylvester3 _ _ _ _ _ _ _ _ _ _ _ _ gauss_exact (le_S 1 1 (le_n 1)) HA HB HC HD EX) as (K & _). exact (proj1 K).
  - intros L b HL. apply gauss_one. rewrite to_mat_get, (proj2 HL) by lia. unfold c_Lt, c_fx, c_fS, c_gx, c_fX, w3_f1, w3_g1, eye. cbn -[Rdiv]. lra.
  - pose proof (second_order_equations gauss_solve gauss_exact 2 1 1 w3_f1 w3_g1 w3_f2 w3_g2 w3_sigma X_s ltac:(lia) eq_refl eq_refl eq_refl eq_refl eq_refl Hs so Eso) as HQ.
    pose proof (is3_self _ _ _ _ (e_Xss _ _ _ _ _ _ _ _ _ _ HQ)) as HXss.
    assert (HXtt : is1 (so_Xtt so) 1 (fun i => at_ (so_Xtt so) [i])) by (split; [exact (e_Xtt _ _ _ _ _ _ _ _ _ _ HQ)|reflexivity]).
    pose proof (e_A _ _ _ _ _ _ _ _ _ _ HQ) as HA. pose proof (e_V13 _ _ _ _ _ _ _ _ _ _ HQ) as HP.
    destruct (third_states_run gauss_solve 2 1 1 w3_f1 w3_g1 w3_f2 w3_g2 w3_f3 w3_g3 X_s eq_refl eq_refl eq_refl eq_refl eq_refl eq_refl Hs _ so
      HP (e_V1 _ _ _ _ _ _ _ _ _ _ HQ) (e_K2 _ _ _ _ _ _ _ _ _ _ HQ) (e_L _ _ _ _ _ _ _ _ _ _ HQ) HXss) as (B & D & ES & HB & HD).
    destruct (scalar_sylvester (so_A so) B (so_V13 so) D _ _ _ (1/2) 2 3 ltac:(lia) HA HB HP (w3_P X_s) (proj1 HD) ltac:(lia)) as (Y3 & E3).
    { rewrite w3_A, w3_fX. lra. }
    rewrite E3 in ES.
    destruct (sylvester4 _ _ _ _ _ _ _ _ _ _ _ _ gauss_exact (le_S 1 1 (le_n 1)) HA HB HP HD E3) as (HY3 & Hq3).
    destruct (third_risk_run gauss_solve 2 1 1 w3_f1 w3_g1 w3_f2 w3_g2 w3_f3 w3_g3 w3_sigma X_s eq_refl eq_refl eq_refl eq_refl eq_refl eq_refl eq_refl Hs _ _ so
      HP (e_V1 _ _ _ _ _ _ _ _ _ _ HQ) (e_L _ _ _ _ _ _ _ _ _ _ HQ) HXss HXtt _ Y3 HY3) as (B' & D' & ER & HB' & HD').
    destruct (scalar_sylvester (so_A so) B' (so_V13 so) D' _ _ _ (1/2) 2 1 ltac:(lia) HA HB' HP (w3_P X_s) (proj1 HD') ltac:(lia)) as (Yt & Et).
    { rewrite w3_A, w3_fX. lra. }
    rewrite Et in ER.
    exists X_s, (so_Xss so), Y3, (so_Xtt so), Yt. split; [|split; [|split; [|split; [|split; [|split; [|split]]]]]].
    + unfold state_perturb. cbn [length Nat.eqb negb]. change (shape w3_f1) with [1; 6]%nat. change (shape w3_g1) with [2; 4]%nat. cbv beta iota.
      change (6 / 2)%nat with 3%nat. cbn [Nat.ltb Nat.leb Nat.sub]. rewrite E1. cbn [bind]. rewrite Eso. cbn [bind]. rewrite ES. cbn [bind]. rewrite ER. reflexivity.
    + unfold coef2. rewrite (proj2 HX) by lia. reflexivity.
    + unfold coef2. rewrite (proj2 HX) by lia. reflexivity.
    + exact (w3_Xss X_s HX so HQ 0%nat 0%nat ltac:(lia) ltac:(lia)).
    + exact (w3_Xss X_s HX so HQ 0%nat 1%nat ltac:(lia) ltac:(lia)).
    + exact (w3_Xss X_s HX so HQ 1%nat 0%nat ltac:(lia) ltac:(lia)).
    + exact (w3_Xss X_s HX so HQ 1%nat 1%nat ltac:(lia) ltac:(lia)).
    + specialize (Hq3 0%nat 0%nat 0%nat 0%nat ltac:(lia) ltac:(lia) ltac:(lia) ltac:(lia)).
      rewrite (w3_D3 X_s HX so HQ) in Hq3. cbn [rsum] in Hq3. rewrite w3_A, w3_fX, !w3_P in Hq3 by lia. unfold eye in Hq3. cbn [Nat.eqb] in Hq3.
      unfold coef4. lra.
Qed.

Lemma w3_f_expands : expands3 6 1 w3_f (coef2 w3_f1) (coef3 w3_f2) (coef4 w3_f3).
Proof.
  exists 0, 1. split; [lra|]. intros u _ i Hi. rewrite Rmult_0_l. right.
  match goal with |- Rabs ?e = 0 => replace e with 0; [apply Rabs_R0|] end.
  unfold poly3, poly2, lin, bil, w3_f, coef2, coef3, coef4.
  replace (tri 6 6 6 (fun i j k l => at_ w3_f3 [i; j; k; l]) u u u i) with 0.
  - cbn. field.
  - symmetry. unfold tri. apply rsum_0. intros a _. apply rsum_0. intros b _. apply rsum_0. intros c _. unfold w3_f3. cbn [at_]. ring.
Qed.
Lemma w3_g_expands : expands3 4 2 w3_g (coef2 w3_g1) (coef3 w3_g2) (coef4 w3_g3).
Proof.
  exists 0, 1. split; [lra|]. intros u _ i Hi. rewrite Rmult_0_l. right.
  match goal with |- Rabs ?e = 0 => replace e with 0; [apply Rabs_R0|] end.
  unfold poly3, poly2, lin, bil, coef2, coef3, coef4.
  replace (tri 4 4 4 (fun i j k l => at_ w3_g3 [i; j; k; l]) u u u i) with 0.
  - destruct i as [|[|i]]; try lia; cbn; field.
  - symmetry. unfold tri. apply rsum_0. intros a _. apply rsum_0. intros b _. apply rsum_0. intros c _. unfold w3_g3. cbn [at_]. ring.
Qed.
Lemma w3_f2_symmetric : symmetric2 1 6 (coef3 w3_f2).
Proof. intros i j k _ Hj Hk. destruct j as [|[|[|[|[|[|j]]]]]]; try lia; destruct k as [|[|[|[|[|[|k]]]]]]; try lia; reflexivity. Qed.
Lemma w3_g2_symmetric : symmetric2 2 4 (coef3 w3_g2).
Proof. intros i j k Hi Hj Hk. destruct i as [|[|i]]; try lia; destruct j as [|[|[|[|j]]]]; try lia; destruct k as [|[|[|[|k]]]]; try lia; reflexivity. Qed.
Lemma w3_separate : states_controls_separate 2 1 (coef3 w3_g2).
Proof. intros i j a Hi Hj Ha. destruct i as [|[|i]]; try lia; destruct j as [|[|j]]; try lia; destruct a; try lia; reflexivity. Qed.

Definition w3_p : vector := fun _ => 1 / 2.
Definition w3_eps : nat -> vector := fun k _ => if Nat.eqb k 0 then 1 else -1.
Lemma w3_shocks : shocks 2 1 w3_p w3_eps (coef2 w3_sigma).
Proof. unfold w3_p, w3_eps. constructor; cbn; intros; unfold coef2; cbn; lra. Qed.
Lemma w3_unskewed : unskewed 2 1 w3_p w3_eps.
Proof. unfold w3_p, w3_eps. intros a b c _ _ _. cbn. lra. Qed.

(** A function of order three exactly is not of order four. *)
Lemma not_order4 : forall a C K d, 0 < Rabs a -> 0 < d ->
    ~ (forall t, Rabs t <= d -> exists q, Rabs q <= C /\ Rabs (t ^ 3 * (a + t * q)) <= K * Rabs t ^ 4).
Proof.
  intros a C K d Ha Hd H.
  pose (B := Rabs K + Rabs C + 1). assert (HB : 0 < B) by (unfold B; pose proof (Rabs_pos K); pose proof (Rabs_pos C); lra).
  pose (t := Rmin d (Rabs a / (2 * B))).
  assert (Ht0 : 0 < t) by (unfold t; apply Rmin_glb_lt; [exact Hd|]; apply Rdiv_lt_0_compat; lra).
  assert (HtB : t * B <= Rabs a / 2).
  { apply Rle_trans with (Rabs a / (2 * B) * B); [apply Rmult_le_compat_r; [lra|apply Rmin_r]|]. right. field. lra. }
  destruct (H t) as (q & Hq & HK); [rewrite Rabs_pos_eq by lra; apply Rmin_l|]. clearbody t.
  rewrite Rabs_mult, <- RPow_abs, (Rabs_pos_eq t) in HK by lra.
  replace (K * t ^ 4) with (t ^ 3 * (K * t)) in HK by ring. apply Rmult_le_reg_l in HK; [|apply pow_lt; exact Ht0].
  pose proof (Rabs_triang (a + t * q) (- (t * q))) as T. replace (a + t * q + - (t * q)) with a in T by ring.
  rewrite Rabs_Ropp, Rabs_mult, (Rabs_pos_eq t) in T by lra.
  pose proof (Rle_abs K). pose proof (Rle_abs C).
  assert (t * Rabs q <= t * Rabs C) by (apply Rmult_le_compat_l; lra).
  assert (K * t <= t * Rabs K) by (rewrite (Rmult_comm K); apply Rmult_le_compat_l; lra).
  assert (t * B = t * Rabs K + t * Rabs C + t) by (unfold B; ring). lra.
Qed.

Lemma w3_residual : forall X_s X_ss X_sss X_tt X_stt t,
    X_s 0%nat 0%nat = 0 -> X_s 0%nat 1%nat = 3/4 ->
    X_ss 0%nat 0%nat 0%nat = 2/5 -> X_ss 0%nat 0%nat 1%nat = -1/10 -> X_ss 0%nat 1%nat 0%nat = -1/10 -> X_ss 0%nat 1%nat 1%nat = 0 ->
    X_sss 0%nat 0%nat 0%nat 0%nat = -24/155 ->
    let c1 := X_sss 0%nat 0%nat 0%nat 1%nat + X_sss 0%nat 0%nat 1%nat 0%nat + X_sss 0%nat 1%nat 0%nat 0%nat in
    let c2 := X_sss 0%nat 0%nat 1%nat 1%nat + X_sss 0%nat 1%nat 1%nat 0%nat + X_sss 0%nat 1%nat 0%nat 1%nat in
    let c3 := X_sss 0%nat 1%nat 1%nat 1%nat in
    residual 2 1 2 w3_p w3_eps w3_f w3_g (rule3 2 X_s X_ss X_sss X_tt X_stt) (fun j => t * match j with 0%nat => 1 | _ => 0 end) (t * 0) 0%nat =
    t ^ 3 * (3/4 + t * (- (1/20) - 1/310 - c1 / 24 + t * (c1 / 24 - c2 / 12) + t * t * (c2 / 12 - c3 / 6) + t * t * t * (c3 / 6))).
Proof.
  intros X_s X_ss X_sss X_tt X_stt t E1 E2 E3 E4 E5 E6 E7 c1 c2 c3. unfold c1, c2, c3.
  unfold residual, rule3, poly3, poly2, lin, bil, tri, w3_f, w3_g, glue, w3_p, w3_eps. cbn -[Rdiv]. rewrite E1, E2, E3, E4, E5, E6, E7. field.
Qed.

Lemma Rabs_mult_le : forall a b c, Rabs a <= 1 -> Rabs b <= c -> Rabs (a * b) <= c.
Proof. intros a b c Ha Hb. rewrite Rabs_mult. pose proof (Rabs_pos a). pose proof (Rabs_pos b). nra. Qed.

Lemma Rabs_plus_le : forall a b c d, Rabs a <= c -> Rabs b <= d -> Rabs (a + b) <= c + d.
Proof. intros a b c d Ha Hb. pose proof (Rabs_triang a b). lra. Qed.

Lemma w3_inaccurate : forall X_s X_ss X_sss X_tt X_stt,
    X_s 0%nat 0%nat = 0 -> X_s 0%nat 1%nat = 3/4 ->
    X_ss 0%nat 0%nat 0%nat = 2/5 -> X_ss 0%nat 0%nat 1%nat = -1/10 -> X_ss 0%nat 1%nat 0%nat = -1/10 -> X_ss 0%nat 1%nat 1%nat = 0 ->
    X_sss 0%nat 0%nat 0%nat 0%nat = -24/155 ->
    ~ accurate 4 2 1 2 w3_p w3_eps w3_f w3_g (rule3 2 X_s X_ss X_sss X_tt X_stt).
Proof.
  intros X_s X_ss X_sss X_tt X_stt E1 E2 E3 E4 E5 E6 E7 H.
  destruct (H (fun j => match j with 0%nat => 1 | _ => 0 end) 0) as (K & d & Hd & HK). clear H.
  pose proof (fun t => w3_residual X_s X_ss X_sss X_tt X_stt t E1 E2 E3 E4 E5 E6 E7) as HR. cbv zeta in HR.
  set (c1 := X_sss 0%nat 0%nat 0%nat 1%nat + X_sss 0%nat 0%nat 1%nat 0%nat + X_sss 0%nat 1%nat 0%nat 0%nat) in HR.
  set (c2 := X_sss 0%nat 0%nat 1%nat 1%nat + X_sss 0%nat 1%nat 1%nat 0%nat + X_sss 0%nat 1%nat 0%nat 1%nat) in HR.
  set (c3 := X_sss 0%nat 1%nat 1%nat 1%nat) in HR. clearbody c1 c2 c3.
  apply (not_order4 (3/4) (Rabs (- (1/20) - 1/310 - c1 / 24) + Rabs (c1 / 24 - c2 / 12) + Rabs (c2 / 12 - c3 / 6) + Rabs (c3 / 6)) K (Rmin d 1)).
  - rewrite Rabs_pos_eq; lra.
  - apply Rmin_glb_lt; lra.
  - intros t Ht. assert (Htd : Rabs t <= d) by (eapply Rle_trans; [exact Ht|apply Rmin_l]).
    assert (Ht1 : Rabs t <= 1) by (eapply Rle_trans; [exact Ht|apply Rmin_r]).
    specialize (HK t Htd 0%nat (le_n 1)). rewrite HR in HK.
    match type of HK with Rabs (_ * (_ + t * ?q)) <= _ => exists q; split; [|exact HK] end.
    repeat apply Rabs_plus_le; [apply Rle_refl| | |]; (apply Rabs_mult_le; [repeat apply Rabs_mult_1; assumption|apply Rle_refl]).
Qed.

Theorem order3_two_states_inaccurate : exists sol X_s X_ss X_sss X_tt X_stt,
    state_perturb w3_qz gauss_solve [w3_sigma; w3_f1; w3_f2; w3_f3] [w3_sigma; w3_g1; w3_g2; w3_g3] w3_sigma = Ok sol /\
    sol = Order3 X_s X_ss X_sss X_tt X_stt /\
    ~ accurate 4 2 1 2 w3_p w3_eps w3_f w3_g (rule3 2 (coef2 X_s) (coef3 X_ss) (coef4 X_sss) (vec_of X_tt) (coef2 X_stt)).
Proof.
  destruct w3_order3 as (X_s & X_ss & X_sss & X_tt & X_stt & E & E1 & E2 & E3 & E4 & E5 & E6 & E7).
  exists (Order3 X_s X_ss X_sss X_tt X_stt), X_s, X_ss, X_sss, X_tt, X_stt.
  split; [exact E|]. split; [reflexivity|]. exact (w3_inaccurate _ _ _ _ _ E1 E2 E3 E4 E5 E6 E7).
Qed.
