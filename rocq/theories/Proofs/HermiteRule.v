(** The rule of order n is exact up to degree 2n-1, and what hermgauss computes. *)
From Coq Require Import Reals List Arith Lia Lra.
From Verif.Base Require Import Prelude Sums Arrays.
From Verif.Spec Require Import LinearAlgebra Law Quadrature.
From Verif.Model Require Import Distributions.
From Verif.Proofs Require Import MatrixAlgebra Hermite HermiteRoots LawProofs NormalProofs.
Import ListNotations.
Open Scope R_scope.

Local Notation He := hermite.

Section Rule.
  Variable m : nat.
  Variable x : nat -> R.
  Hypothesis Hx : hermite_nodes (S m) x.

  Definition uw (i : nat) : R := hc m / (INR (S m) * He m (x i) ^ 2).
  Definition Q (f : R -> R) : R := rsum (S m) (fun i => uw i * f (x i)).

  Lemma uw_kernel : forall i, (i < S m)%nat -> uw i * hk (S m) (x i) (x i) = 1.
  Proof.
    intros i Hi. pose proof (at_root m (x i) (proj1 Hx i Hi)) as A.
    pose proof (root_simple m (x i) (proj1 Hx i Hi)) as N.
    assert (INR (S m) <> 0) by (apply not_0_INR; lia).
    unfold uw. replace (hc m / (INR (S m) * He m (x i) ^ 2) * hk (S m) (x i) (x i))
      with ((hc m * hk (S m) (x i) (x i)) / (INR (S m) * He m (x i) ^ 2)) by (field; split; assumption).
    rewrite A. field. split; assumption.
  Qed.

  Lemma orth : forall j k, (j < S m)%nat -> (k < S m)%nat ->
      Q (fun y => He j y * He k y) = if Nat.eqb j k then hc k else 0.
  Proof.
    intros j k Hj Hk.
    destruct (right_inverse_left (S m) (fun i j => uw i * He j (x i)) (fun j i => He j (x i) / hc j)) as (_ & L).
    - intros i l Hi Hl. unfold mat_mul.
      rewrite (rsum_ext _ _ (fun j => uw i * (He j (x i) * He j (x l) / hc j))) by (intros; unfold Rdiv; ring).
      rewrite rsum_scal. fold (hk (S m) (x i) (x l)). unfold eye.
      destruct (Nat.eqb_spec i l) as [<-|Hne].
      + apply uw_kernel, Hi.
      + pose proof (darboux m (x i) (x l)) as D. rewrite (proj1 Hx i Hi), (proj1 Hx l Hl) in D.
        assert (x i - x l <> 0).
        { intros Z. apply Hne, (proj2 Hx); try assumption. lra. }
        pose proof (hc_pos m).
        assert (E : 2 * hc m * (x i - x l) <> 0).
        { apply Rmult_integral_contrapositive. split; [lra|assumption]. }
        destruct (Rmult_integral (2 * hc m * (x i - x l)) (hk (S m) (x i) (x l)) ltac:(lra)) as [Z|Z];
          [contradiction|rewrite Z; ring].
    - specialize (L j k Hj Hk). unfold mat_mul, eye in L. unfold Q.
      rewrite (rsum_ext _ _ (fun i => hc j * (He j (x i) / hc j * (uw i * He k (x i))))).
      + rewrite rsum_scal, L. destruct (Nat.eqb_spec j k) as [->|]; ring.
      + intros i Hi. field. apply Rgt_not_eq, hc_pos.
  Qed.

  Lemma orth_top : forall j k, (j <= S m)%nat -> (k < S m)%nat ->
      Q (fun y => He j y * He k y) = if Nat.eqb j k then hc k else 0.
  Proof.
    intros j k Hj Hk. destruct (le_lt_dec (S m) j) as [L|L]; [|apply orth; assumption].
    assert (j = S m) as -> by lia. destruct (Nat.eqb_spec (S m) k); [lia|].
    apply rsum_0. intros i Hi. rewrite (proj1 Hx i Hi). ring.
  Qed.

  Lemma Q_ext : forall f g, (forall y, f y = g y) -> Q f = Q g.
  Proof. intros f g E. apply rsum_ext. intros i _. rewrite E. reflexivity. Qed.
  Lemma Q_plus : forall f g, Q (fun y => f y + g y) = Q f + Q g.
  Proof. intros f g. unfold Q. rewrite <- rsum_plus. apply rsum_ext. intros; cbv beta; ring. Qed.
  Lemma Q_scal : forall c f, Q (fun y => c * f y) = c * Q f.
  Proof. intros c f. unfold Q. rewrite <- rsum_scal. apply rsum_ext. intros; cbv beta; ring. Qed.

  Lemma Q_one : Q (fun _ => 1) = 1.
  Proof.
    pose proof (orth 0 0 ltac:(lia) ltac:(lia)) as O. cbn [Nat.eqb] in O. rewrite hc_0 in O.
    refine (eq_trans (Q_ext _ _ _) O). intros y. rewrite H_0. ring.
  Qed.

  (** The pairs (f, f') with f in the span of H_0 .. H_a. *)
  Inductive hs (a : nat) : (R -> R) -> (R -> R) -> Prop :=
  | hs_base : forall j, (j <= a)%nat -> hs a (He j) (fun y => 2 * INR j * He (j - 1) y)
  | hs_add : forall f f' g g', hs a f f' -> hs a g g' -> hs a (fun y => f y + g y) (fun y => f' y + g' y)
  | hs_scal : forall c f f', hs a f f' -> hs a (fun y => c * f y) (fun y => c * f' y)
  | hs_ext : forall f f' g g', hs a f f' -> (forall y, f y = g y) -> (forall y, f' y = g' y) -> hs a g g'.

  Lemma hs_mono : forall a b f f', (a <= b)%nat -> hs a f f' -> hs b f f'.
  Proof.
    intros a b f f' L D. induction D as [j Hj| f f' g g' _ I1 _ I2|c f f' _ I|f f' g g' _ I E E'].
    - apply hs_base; lia.
    - apply hs_add; assumption.
    - apply hs_scal; assumption.
    - eapply hs_ext; eassumption.
  Qed.

  Lemma hs_mulx : forall a f f', hs a f f' -> hs (S a) (fun y => y * f y) (fun y => f y + y * f' y).
  Proof.
    intros a f f' D. induction D as [j Hj| f f' g g' _ I1 _ I2|c f f' _ I|f f' g g' _ I E E'].
    - destruct j as [|j].
      + apply (hs_ext _ (fun y => / 2 * He 1 y) (fun y => / 2 * (2 * INR 1 * He (1 - 1) y))).
        * apply (hs_scal (S a) (/ 2) _ _ (hs_base (S a) 1 ltac:(lia))).
        * intros y. rewrite H_1, H_0. field.
        * intros y. change (1 - 1)%nat with 0%nat. change (0 - 1)%nat with 0%nat. rewrite !H_0.
          change (INR 0) with 0. change (INR 1) with 1. field.
      + apply (hs_ext _ (fun y => / 2 * He (S (S j)) y + INR (S j) * He j y)
                 (fun y => / 2 * (2 * INR (S (S j)) * He (S (S j) - 1) y) + INR (S j) * (2 * INR j * He (j - 1) y))).
        * apply hs_add; apply hs_scal, hs_base; lia.
        * intros y. rewrite H_SS. field.
        * intros y. replace (S (S j) - 1)%nat with (S j) by lia. replace (S j - 1)%nat with j by lia.
          destruct j as [|j].
          -- change (0 - 1)%nat with 0%nat. rewrite H_1, H_0.
             change (INR 0) with 0. change (INR 1) with 1. replace (INR 2) with 2 by (simpl; ring). field.
          -- replace (S j - 1)%nat with j by lia. rewrite (H_SS j). rewrite !S_INR. field.
    - eapply hs_ext; [exact (hs_add _ _ _ _ _ I1 I2)| |]; intros y; cbv beta; ring.
    - eapply hs_ext; [exact (hs_scal _ c _ _ I)| |]; intros y; cbv beta; ring.
    - eapply hs_ext; [exact I| |]; intros y; cbv beta; rewrite ?E, ?E'; ring.
  Qed.

  Lemma hs_affine_pow : forall mu sg a,
      hs a (fun y => (mu + sg * y) ^ a) (fun y => INR a * sg * (mu + sg * y) ^ (a - 1)).
  Proof.
    intros mu sg. induction a as [|a IH].
    - eapply hs_ext; [exact (hs_base 0 0 (le_n 0))| |]; intros y; [reflexivity|simpl; ring].
    - eapply hs_ext.
      + apply hs_add; [exact (hs_scal _ mu _ _ (hs_mono a (S a) _ _ ltac:(lia) IH))|
                       exact (hs_scal _ sg _ _ (hs_mulx _ _ _ IH))].
      + intros y. cbn [pow]. ring.
      + intros y. cbv beta. replace (S a - 1)%nat with a by lia. rewrite S_INR.
        destruct a as [|a]; [simpl; ring|]. replace (S a - 1)%nat with a by lia. cbn [pow]. ring.
  Qed.

  Lemma stein_base : forall j k, (j < S m)%nat -> (k < S m)%nat ->
      Q (fun y => y * (He j y * He k y)) =
      / 2 * Q (fun y => 2 * INR j * He (j - 1) y * He k y + He j y * (2 * INR k * He (k - 1) y)).
  Proof.
    intros j k Hj Hk. rewrite Q_plus.
    rewrite (Q_ext (fun y => y * (He j y * He k y))
               (fun y => / 2 * (He (S j) y * He k y) + INR j * (He (j - 1) y * He k y))).
    2:{ intros y. destruct j as [|j]; [rewrite H_1, H_0; simpl; field|].
        replace (S j - 1)%nat with j by lia. rewrite H_SS. field. }
    rewrite Q_plus, !Q_scal.
    rewrite (Q_ext (fun y => 2 * INR j * He (j - 1) y * He k y) (fun y => 2 * INR j * (He (j - 1) y * He k y)))
      by (intros; ring).
    rewrite (Q_ext (fun y => He j y * (2 * INR k * He (k - 1) y)) (fun y => 2 * INR k * (He j y * He (k - 1) y)))
      by (intros; ring).
    rewrite !Q_scal. rewrite (orth_top (S j) k) by lia.
    destruct k as [|k].
    - cbn [Nat.eqb]. simpl (INR 0). field.
    - replace (S k - 1)%nat with k by lia. rewrite (orth j k) by lia. cbn [Nat.eqb].
      destruct (Nat.eqb_spec j k) as [->|]; [rewrite hc_S; field|field].
  Qed.

  Lemma stein : forall f f', hs m f f' -> forall g g', hs m g g' ->
      Q (fun y => y * (f y * g y)) = / 2 * Q (fun y => f' y * g y + f y * g' y).
  Proof.
    intros f f' D. induction D as [j Hj| f f' h h' _ I1 _ I2|c f f' _ I|f f' h h' _ I E E']; intros g g' G.
    - induction G as [k Hk| f f' h h' _ I1 _ I2|c f f' _ I|f f' h h' _ I E E'].
      + apply stein_base; lia.
      + rewrite (Q_ext _ (fun y => y * (He j y * f y) + y * (He j y * h y))) by (intros; ring).
        rewrite Q_plus, I1, I2, <- Rmult_plus_distr_l, <- Q_plus. f_equal. apply Q_ext. intros; ring.
      + rewrite (Q_ext _ (fun y => c * (y * (He j y * f y)))) by (intros; ring).
        rewrite Q_scal, I, <- Rmult_assoc, (Rmult_comm c), Rmult_assoc, <- Q_scal. f_equal.
        apply Q_ext. intros; ring.
      + rewrite (Q_ext _ (fun y => y * (He j y * f y))) by (intros; rewrite E; reflexivity).
        rewrite I. f_equal. apply Q_ext. intros. rewrite E, E'. reflexivity.
    - rewrite (Q_ext _ (fun y => y * (f y * g y) + y * (h y * g y))) by (intros; ring).
      rewrite Q_plus, (I1 g g' G), (I2 g g' G), <- Rmult_plus_distr_l, <- Q_plus. f_equal. apply Q_ext. intros; ring.
    - rewrite (Q_ext _ (fun y => c * (y * (f y * g y)))) by (intros; ring).
      rewrite Q_scal, (I g g' G), <- Rmult_assoc, (Rmult_comm c), Rmult_assoc, <- Q_scal. f_equal.
      apply Q_ext. intros; ring.
    - rewrite (Q_ext _ (fun y => y * (f y * g y))) by (intros; rewrite E; reflexivity).
      rewrite (I g g' G). f_equal. apply Q_ext. intros. rewrite E, E'. reflexivity.
  Qed.

  Lemma stein_pow : forall mu sg k, (k <= 2 * m)%nat ->
      Q (fun y => y * (mu + sg * y) ^ k) = / 2 * (INR k * sg * Q (fun y => (mu + sg * y) ^ (k - 1))).
  Proof.
    intros mu sg k Hk.
    set (a := Nat.min k m). set (b := (k - a)%nat).
    assert (Ea : (a <= m)%nat) by (unfold a; lia). assert (Eb : (b <= m)%nat) by (unfold b, a; lia).
    assert (Ek : k = (a + b)%nat) by (unfold b, a; lia).
    pose proof (stein _ _ (hs_mono a m _ _ Ea (hs_affine_pow mu sg a)) _ _ (hs_mono b m _ _ Eb (hs_affine_pow mu sg b))) as E.
    cbv beta in E. rewrite <- Q_scal.
    rewrite (Q_ext (fun y => y * (mu + sg * y) ^ k) (fun y => y * ((mu + sg * y) ^ a * (mu + sg * y) ^ b))).
    - rewrite E. f_equal. apply Q_ext. intros y. rewrite Ek, plus_INR.
      destruct a as [|a'], b as [|b'].
      + simpl. ring.
      + replace (0 + S b' - 1)%nat with b' by lia. replace (S b' - 1)%nat with b' by lia. simpl (INR 0). cbn [pow Nat.sub]. ring.
      + rewrite !Nat.add_0_r. replace (S a' - 1)%nat with a' by lia. simpl (INR 0). cbn [pow Nat.sub]. ring.
      + replace (S a' + S b' - 1)%nat with (S (a' + b')) by lia.
        replace (S a' - 1)%nat with a' by lia. replace (S b' - 1)%nat with b' by lia.
        cbn [pow]. rewrite pow_add. ring.
    - intros y. rewrite Ek, pow_add. reflexivity.
  Qed.

  Lemma Q_moments : forall mu sg k, (k <= 2 * m + 1)%nat ->
      normal_moments mu (sg / sqrt 2) k =
      (Q (fun y => (mu + sg * y) ^ k), match k with O => 0 | S j => Q (fun y => (mu + sg * y) ^ j) end).
  Proof.
    intros mu sg. induction k as [|k IH]; intros Hk.
    - cbn [normal_moments pow]. rewrite Q_one. reflexivity.
    - cbn [normal_moments]. rewrite IH by lia. cbn [fst snd]. f_equal.
      rewrite (Q_ext (fun y => (mu + sg * y) ^ S k)
                 (fun y => mu * (mu + sg * y) ^ k + sg * (y * (mu + sg * y) ^ k))) by (intros; cbn [pow]; ring).
      rewrite Q_plus, !Q_scal, stein_pow by lia.
      replace ((sg / sqrt 2) ^ 2) with (sg ^ 2 * / 2).
      2:{ unfold Rdiv. rewrite Rpow_mult_distr, pow_inv. f_equal. f_equal. symmetry. apply pow2_sqrt. lra. }
      destruct k as [|k]; [simpl (INR 0); ring|]. replace (S k - 1)%nat with k by lia. ring.
  Qed.

  Lemma weight_uw : forall i, (i < S m)%nat -> hermite_weight (S m) (x i) / sqrt PI = uw i.
  Proof.
    intros i Hi. unfold hermite_weight, uw. replace (S m - 1)%nat with m by lia.
    unfold hc. rewrite fact_simpl, mult_INR.
    assert (INR (S m) <> 0) by (apply not_0_INR; lia).
    pose proof (root_simple m (x i) (proj1 Hx i Hi)).
    pose proof sqrt_PI_pos. field. repeat split; [assumption|assumption|lra].
  Qed.
End Rule.

Lemma gauss_rule : forall n x mu sigma, (1 <= n)%nat -> hermite_nodes n x ->
    matches_normal (2 * n - 1) mu sigma n
      (fun i => mu + sigma * (x i * sqrt 2)) (fun i => hermite_weight n (x i) / sqrt PI).
Proof.
  intros [|m] x mu sigma Hn Hx k Hk; [lia|].
  assert (S2 : 0 < sqrt 2) by (apply sqrt_lt_R0; lra).
  pose proof (Q_moments m x Hx mu (sigma * sqrt 2) k ltac:(lia)) as E.
  replace (sigma * sqrt 2 / sqrt 2) with sigma in E by (field; lra).
  unfold normal_moment. rewrite E. cbn [fst]. apply rsum_ext. intros i Hi.
  rewrite (weight_uw m x Hx i Hi). f_equal. f_equal. ring.
Qed.

Lemma weight_pos : forall n z, (1 <= n)%nat -> hermite (n - 1) z <> 0 -> 0 < hermite_weight n z.
Proof.
  intros n z Hn Hz. unfold hermite_weight. pose proof sqrt_PI_pos.
  assert (0 < INR n) by (apply lt_0_INR; lia).
  apply Rdiv_lt_0_compat.
  - apply Rmult_lt_0_compat; [|assumption]. apply Rmult_lt_0_compat; [apply pow_lt; lra|apply INR_fact_lt_0].
  - apply Rmult_lt_0_compat; [apply pow_lt; assumption|].
    rewrite <- Rsqr_pow2. apply Rsqr_pos_lt, Hz.
Qed.

Lemma gauss_law : forall n x, (1 <= n)%nat -> hermite_nodes n x ->
    is_law n (fun i => hermite_weight n (x i) / sqrt PI).
Proof.
  intros n x Hn Hx. split.
  - intros i Hi. apply Rlt_le, Rdiv_lt_0_compat; [|apply sqrt_PI_pos]. apply weight_pos; [exact Hn|].
    destruct n as [|m]; [lia|]. replace (S m - 1)%nat with m by lia. apply root_simple, (proj1 Hx), Hi.
  - pose proof (gauss_rule n x 0 1 Hn Hx 0%nat ltac:(lia)) as E. unfold normal_moment in E. cbn [normal_moments fst] in E.
    rewrite <- E. apply rsum_ext. intros i _. cbn [pow]. ring.
Qed.

(** The rule meets the hypothesis of the theorems on discretised normals. *)
Lemma gauss_exact_rule : forall n x, (2 <= n)%nat -> hermite_nodes n x ->
    exact_rule n x (fun i => hermite_weight n (x i)).
Proof.
  intros n x Hn Hx. pose proof sqrt_PI_pos as P.
  pose proof (gauss_rule n x 0 (/ sqrt 2) ltac:(lia) Hx) as G.
  assert (S2 : 0 < sqrt 2) by (apply sqrt_lt_R0; lra).
  assert (E : forall k, (k <= 2)%nat ->
    rsum n (fun i => hermite_weight n (x i) * x i ^ k) = sqrt PI * normal_moment 0 (/ sqrt 2) k).
  { intros k Hk. rewrite <- (G k ltac:(lia)), <- rsum_scal. apply rsum_ext. intros i _.
    replace (0 + / sqrt 2 * (x i * sqrt 2)) with (x i) by (field; lra). field. lra. }
  unfold normal_moment in E. split; [|split].
  - rewrite <- (rsum_ext n (fun i => hermite_weight n (x i) * x i ^ 0)) by (intros; cbn [pow]; ring).
    rewrite (E 0%nat) by lia. cbn [normal_moments fst]. ring.
  - rewrite <- (rsum_ext n (fun i => hermite_weight n (x i) * x i ^ 1)) by (intros; cbn [pow]; ring).
    rewrite (E 1%nat) by lia. cbn [normal_moments fst snd]. simpl (INR 0). ring.
  - rewrite (E 2%nat) by lia. cbn [normal_moments fst snd]. simpl (INR 0). simpl (INR 1).
    rewrite pow_inv, pow2_sqrt by lra. field.
Qed.

(** ** The code *)
Definition pim4 : R := 1 / Rpower PI (1 / 4).

Lemma pim4_sq : pim4 * pim4 = / sqrt PI.
Proof.
  assert (Hq : 0 < Rpower PI (1 / 4)) by (unfold Rpower; apply exp_pos).
  assert (Hs : Rpower PI (1 / 4) * Rpower PI (1 / 4) = sqrt PI).
  { rewrite <- Rpower_plus, <- Rpower_sqrt by apply PI_RGT_0. f_equal. field. }
  unfold pim4. rewrite <- Hs. field. lra.
Qed.

Lemma pim4_pos : 0 < pim4.
Proof.
  unfold pim4. assert (Hq : 0 < Rpower PI (1 / 4)) by (unfold Rpower; apply exp_pos).
  apply Rdiv_lt_0_compat; lra.
Qed.

Lemma herm_rec_eq : forall n z, herm_rec n z =
    (pim4 * He n z / sqrt (hc n), match n with O => 0 | S k => pim4 * He k z / sqrt (hc k) end).
Proof.
  intros n z. induction n as [|n IH].
  - unfold herm_rec. cbn [for_range]. rewrite hc_0, sqrt_1, H_0. fold pim4. f_equal. field.
  - unfold herm_rec in *. cbn [for_range]. rewrite IH. f_equal.
    assert (P1 : 0 < INR n + 1) by (pose proof (pos_INR n); lra).
    assert (S1 : sqrt (2 / (INR n + 1)) = 2 / sqrt (2 * (INR n + 1))).
    { replace (2 / (INR n + 1)) with (4 / (2 * (INR n + 1))) by (field; lra).
      rewrite sqrt_div by lra. f_equal. replace 4 with (2 * 2) by ring. apply sqrt_square. lra. }
    rewrite hc_S, S_INR. rewrite sqrt_mult by (try lra; apply Rlt_le, hc_pos). rewrite S1.
    assert (Q1 : 0 < sqrt (2 * (INR n + 1))) by (apply sqrt_lt_R0; lra).
    assert (Q2 : 0 < sqrt (hc n)) by (apply sqrt_lt_R0, hc_pos).
    destruct n as [|n].
    + rewrite H_1, H_0. field. lra.
    + rewrite H_SS. rewrite S_INR in *. assert (P0 : 0 < INR n + 1) by (pose proof (pos_INR n); lra).
      assert (S2 : sqrt ((INR n + 1) / (INR n + 1 + 1)) = 2 * (INR n + 1) / (sqrt (2 * (INR n + 1 + 1)) * sqrt (2 * (INR n + 1)))).
      { replace ((INR n + 1) / (INR n + 1 + 1)) with ((2 * (INR n + 1)) / (2 * (INR n + 1 + 1))) by (field; lra).
        rewrite sqrt_div by lra.
        rewrite <- (sqrt_sqrt (2 * (INR n + 1))) at 2 by lra. field.
        split; apply Rgt_not_eq, sqrt_lt_R0; lra. }
      assert (S3 : sqrt (hc (S n)) = sqrt (2 * (INR n + 1)) * sqrt (hc n)).
      { rewrite hc_S, S_INR. apply sqrt_mult; [lra|apply Rlt_le, hc_pos]. }
      rewrite S2, S3.
      field. repeat split; apply Rgt_not_eq, sqrt_lt_R0; try lra; apply hc_pos.
Qed.

Lemma step_eq : forall m z, let '(p1, p2) := herm_rec (S m) z in
    let pp := sqrt (2 * INR (S m)) * p2 in
    (He m z = 0 -> pp = 0) /\
    (He m z <> 0 -> p1 / pp = He (S m) z / (2 * INR (S m) * He m z) /\ 2 / pp ^ 2 = hermite_weight (S m) z).
Proof.
  intros m z. rewrite herm_rec_eq. cbv zeta.
  pose proof pim4_pos as Pp. pose proof (hc_pos m) as Pc. pose proof sqrt_PI_pos as Ps.
  assert (Pn : 0 < INR (S m)) by (apply lt_0_INR; lia).
  assert (Q1 : 0 < sqrt (2 * INR (S m))) by (apply sqrt_lt_R0; lra).
  assert (Q2 : 0 < sqrt (hc m)) by (apply sqrt_lt_R0, hc_pos).
  split.
  - intros E. rewrite E. unfold Rdiv. ring.
  - intros N. split.
    + rewrite hc_S, sqrt_mult by lra.
      replace (2 * INR (S m) * He m z) with (sqrt (2 * INR (S m)) * sqrt (2 * INR (S m)) * He m z)
        by (rewrite sqrt_sqrt by lra; reflexivity).
      field. repeat split; try lra.
    + replace ((sqrt (2 * INR (S m)) * (pim4 * He m z / sqrt (hc m))) ^ 2)
        with ((sqrt (2 * INR (S m)) * sqrt (2 * INR (S m))) * (pim4 * pim4) * He m z ^ 2 / (sqrt (hc m) * sqrt (hc m)))
        by (field; lra).
      rewrite !sqrt_sqrt, pim4_sq by lra.
      unfold hermite_weight. replace (S m - 1)%nat with m by lia. unfold hc. rewrite fact_simpl, mult_INR.
      pose proof (INR_fact_lt_0 m). assert (0 < 2 ^ m) by (apply pow_lt; lra).
      field. repeat split; try lra.
Qed.

Lemma newton_result : forall m fuel z z' pp, herm_newton fuel (S m) z = Ok (z', pp) ->
    exists z1, Rabs (z' - z1) < 1 / 10 ^ 14 /\ He m z1 <> 0 /\
      Rabs (He (S m) z1 / (2 * INR (S m) * He m z1)) < 1 / 10 ^ 14 /\ 2 / pp ^ 2 = hermite_weight (S m) z1.
Proof.
  intros m. induction fuel as [|fuel IH]; intros z z' pp E; [discriminate|].
  cbn [herm_newton] in E. pose proof (step_eq m z) as SE.
  destruct (herm_rec (S m) z) as [p1 p2]. cbv zeta in SE. destruct SE as (S0 & S1).
  destruct (Req_EM_T (sqrt (2 * INR (S m)) * p2) 0) as [|N]; [discriminate|].
  destruct (Rlt_dec _ _) as [L|L].
  - destruct fuel; [discriminate|]. injection E as <- <-.
    assert (Z : He m z <> 0) by (intros Z; apply N, S0, Z).
    destruct (S1 Z) as (S2 & S3). exists z. split; [exact L|]. split; [exact Z|]. split; [|exact S3].
    rewrite <- S2. replace (p1 / (sqrt (2 * INR (S m)) * p2)) with (- (z - p1 / (sqrt (2 * INR (S m)) * p2) - z)) by ring.
    rewrite Rabs_Ropp. exact L.
  - exact (IH _ _ _ E).
Qed.

Lemma He_parity : forall n z, He n (- z) = (-1) ^ n * He n z.
Proof. intros n z. apply H_parity. Qed.

Lemma weight_even : forall n z, hermite_weight n (- z) = hermite_weight n z.
Proof.
  intros n z. unfold hermite_weight. rewrite He_parity. rewrite Rpow_mult_distr.
  replace (((-1) ^ (n - 1)) ^ 2) with 1; [rewrite Rmult_1_l; reflexivity|].
  cbn [pow]. rewrite Rmult_1_r. symmetry. apply sgn_sq.
Qed.

Definition near (n : nat) (z w : R) : Prop :=
  exists r z1, hermite n r = 0 /\ Rabs (z - r) < (INR n + 1) / 10 ^ 14 /\
    Rabs (z - z1) < 1 / 10 ^ 14 /\ hermite (n - 1) z1 <> 0 /\ w = hermite_weight n z1.

Lemma newton_near : forall n fuel z z' pp, (1 <= n)%nat -> herm_newton fuel n z = Ok (z', pp) -> near n z' (2 / pp ^ 2).
Proof.
  intros [|m] fuel z z' pp Hn E; [lia|].
  destruct (newton_result m fuel z z' pp E) as (z1 & L & N & St & W).
  destruct (roots_exist (S m)) as (x & _ & Hx).
  destruct (short_step_near_root (S m) x z1 (1 / 10 ^ 14) ltac:(lia) Hx) as (i & Hi & D).
  - replace (S m - 1)%nat with m by lia. exact N.
  - replace (S m - 1)%nat with m by lia. exact St.
  - exists (x i), z1. split; [apply (proj1 Hx), Hi|]. split.
    + replace (z' - x i) with ((z' - z1) + (z1 - x i)) by ring.
      eapply Rle_lt_trans; [apply Rabs_triang|]. unfold Rdiv in *. lra.
    + split; [exact L|]. replace (S m - 1)%nat with m by lia. split; [exact N|exact W].
Qed.

Lemma near_opp : forall n z w, near n z w -> near n (- z) w.
Proof.
  intros n z w (r & z1 & R0 & D & L & N & W). exists (- r), (- z1).
  split; [rewrite He_parity, R0; ring|].
  split; [replace (- z - - r) with (- (z - r)) by ring; rewrite Rabs_Ropp; exact D|].
  split; [replace (- z - - z1) with (- (z - z1)) by ring; rewrite Rabs_Ropp; exact L|].
  split; [|rewrite weight_even; exact W].
  rewrite He_parity. apply Rmult_integral_contrapositive. split; [apply pow_nonzero; lra|exact N].
Qed.

Definition near_upto (n i : nat) (x w : nat -> R) : Prop := forall k, (k < i)%nat ->
  near n (x k) (w k) /\ near n (x (n - 1 - k)%nat) (w (n - 1 - k)%nat).

Lemma hermgauss_near : forall n x w, hermgauss n = Ok (x, w) -> forall i, (i < n)%nat -> near n (x i) (w i).
Proof.
  intros n x w E. unfold hermgauss in E. cbv zeta in E.
  match type of E with bind ?e _ = _ => destruct e as [[[z x'] w']|] eqn:F end; [|discriminate].
  cbn [bind] in E. injection E as <- <-.
  assert (HI : near_upto n ((n + 1) / 2) x' w').
  { apply (for_range_res_inv (fun i st => near_upto n i (snd (fst st)) (snd st))) in F.
    - exact F.
    - intros k Hk. lia.
    - intros k [[z0 x0] w0] [[z1 x1] w1] Hk HP Hb. cbn [fst snd] in *.
      assert (Hkn : (2 * k + 1 <= n)%nat).
      { pose proof (Nat.div_mod (n + 1) 2 ltac:(lia)). pose proof (Nat.mod_upper_bound (n + 1) 2 ltac:(lia)). lia. }
      destruct (herm_newton 100 n (herm_start n k z0 x0)) as [[z' pp]|] eqn:EN; [|discriminate].
      cbn [bind] in Hb. injection Hb as <- <- <-.
      pose proof (newton_near n _ _ _ _ ltac:(lia) EN) as NR. pose proof (near_opp _ _ _ NR) as NO.
      replace (n - k - 1)%nat with (n - 1 - k)%nat by lia.
      intros j Hj. destruct (Nat.eq_dec j k) as [->|Hjk].
      + unfold upd. rewrite !Nat.eqb_refl. split.
        * destruct (Nat.eqb k (n - 1 - k)); exact NO.
        * destruct (Nat.eqb (n - 1 - k) k); [exact NO|exact NR].
      + assert (Hjlt : (j < k)%nat) by lia. rewrite !upd_other by lia. apply HP, Hjlt. }
  intros i Hi.
  assert (Hm : (n <= 2 * ((n + 1) / 2))%nat).
  { pose proof (Nat.div_mod (n + 1) 2 ltac:(lia)). pose proof (Nat.mod_upper_bound (n + 1) 2 ltac:(lia)). lia. }
  destruct (le_lt_dec ((n + 1) / 2) i) as [Hle|Hlt].
  - destruct (HI (n - 1 - i)%nat ltac:(lia)) as [_ H2].
    replace (n - 1 - (n - 1 - i))%nat with i in H2 by lia. exact H2.
  - apply HI; assumption.
Qed.

Lemma hermgauss_accuracy : forall n x w, hermgauss n = Ok (x, w) -> forall i, (i < n)%nat ->
    (exists r, hermite n r = 0 /\ Rabs (x i - r) < (INR n + 1) / 10 ^ 14) /\
    (exists z, Rabs (x i - z) < 1 / 10 ^ 14 /\ hermite (n - 1) z <> 0 /\ w i = hermite_weight n z).
Proof.
  intros n x w E i Hi. destruct (hermgauss_near n x w E i Hi) as (r & z1 & R0 & D & L & N & W).
  split; [exists r; split; assumption|exists z1; split; [exact L|split; [exact N|exact W]]].
Qed.

Lemma hermgauss_all_roots : forall n x w, hermgauss n = Ok (x, w) ->
    (forall i j, (i < n)%nat -> (j < n)%nat -> i <> j -> 2 * (INR n + 1) / 10 ^ 14 <= Rabs (x i - x j)) ->
    exists r, hermite_nodes n r /\ forall i, (i < n)%nat -> Rabs (x i - r i) < (INR n + 1) / 10 ^ 14.
Proof.
  intros n x w E S.
  destruct (finite_choice n (fun i r => hermite n r = 0 /\ Rabs (x i - r) < (INR n + 1) / 10 ^ 14)) as (r & Hr).
  { intros i Hi. exact (proj1 (hermgauss_accuracy n x w E i Hi)). }
  exists r. split; [|intros i Hi; apply Hr, Hi]. split; [intros i Hi; apply Hr, Hi|].
  intros i j Hi Hj Eq. destruct (Nat.eq_dec i j) as [|Hne]; [assumption|exfalso].
  specialize (S i j Hi Hj Hne). destruct (Hr i Hi) as (_ & Di), (Hr j Hj) as (_ & Dj).
  rewrite Eq in Di. replace (x i - x j) with ((x i - r j) + - (x j - r j)) in S by ring.
  pose proof (Rabs_triang (x i - r j) (- (x j - r j))) as T. rewrite Rabs_Ropp in T.
  unfold Rdiv in *. lra.
Qed.

(** UNormal.discretize with the exact rule. *)
Lemma unormal_matches : forall herm chol sigma mu n x,
    0 <= sigma -> (1 <= n)%nat -> hermite_nodes n x -> herm n = Ok (x, fun i => hermite_weight n (x i)) ->
    exists d, unormal_gh herm chol sigma mu n = Ok d /\ iid_n d = n /\ is_law n (iid_weight d) /\
      matches_normal (2 * n - 1) mu sigma n (fun i => coord 0 (iid_point d i)) (iid_weight d).
Proof.
  intros herm chol sigma mu n x Hs Hn Hx Eh.
  unfold unormal_gh, unormal_gh_orders, gauss_hermite_nodes, herms. rewrite Eh. cbn [bind nrow ncol mget Nat.eqb andb].
  destruct (Rlt_dec (sigma ^ 2) 0) as [L|_]; [pose proof (pow2_ge_0 sigma); lra|]. cbn [bind].
  unfold finite_distribution. cbn [nrow ncol gh_weights vlen fst snd]. rewrite Nat.eqb_refl.
  eexists. split; [reflexivity|]. split; [reflexivity|].
  split; [exact (gauss_law n x Hn Hx)|].
  intros k Hk. rewrite <- (gauss_rule n x mu sigma Hn Hx k Hk). apply rsum_ext. intros i Hi.
  rewrite coord_point by (simpl; lia).
  change (iid_weight (Finite ?p ?q)) with (vget q). cbn [mget vget fst snd]. f_equal. f_equal.
  unfold gh_points. cbn [fst snd].
  rewrite (nth_indep _ 0 ((fun i => x i * sqrt 2) 0%nat)) by (rewrite map_length, seq_length; exact Hi).
  rewrite (map_nth (fun i => x i * sqrt 2)), seq_nth by exact Hi. cbn [Nat.add].
  rewrite <- Rsqr_pow2, sqrt_Rsqr by exact Hs. ring.
Qed.

(** Order two: the nodes -1/sqrt 2 and 1/sqrt 2. *)
Lemma nodes_2 : hermite_nodes 2 (fun i => match i with O => - (1 / sqrt 2) | _ => 1 / sqrt 2 end).
Proof.
  assert (S2 : 0 < sqrt 2) by (apply sqrt_lt_R0; lra).
  assert (P : 0 < 1 / sqrt 2) by (apply Rdiv_lt_0_compat; lra).
  assert (E : 1 / sqrt 2 * (1 / sqrt 2) = 1 / 2).
  { rewrite <- (sqrt_sqrt 2) at 3 by lra. field. lra. }
  split.
  - intros i Hi. rewrite H_SS, H_1, H_0. simpl (INR 1).
    destruct i as [|[|i]]; [nra|nra|lia].
  - intros [|[|i]] [|[|j]] Hi Hj Eq; try lia; lra.
Qed.

Lemma low_moments : forall mu sigma,
    normal_moment mu sigma 2 = mu ^ 2 + sigma ^ 2 /\
    normal_moment mu sigma 3 = mu ^ 3 + 3 * mu * sigma ^ 2 /\
    normal_moment 0 sigma 4 = 3 * sigma ^ 4.
Proof. intros mu sigma. unfold normal_moment. simpl. repeat split; ring. Qed.

Lemma low_hermite : forall x,
    hermite 1 x = 2 * x /\ hermite 2 x = 4 * x ^ 2 - 2 /\ hermite 3 x = 8 * x ^ 3 - 12 * x.
Proof. intros x. unfold hermite. simpl. repeat split; ring. Qed.

(** Order one: what the code returns satisfies the hypotheses of [hermgauss_all_roots]. *)
Lemma hermgauss_1_near : exists x w, hermgauss 1 = Ok (x, w) /\
    forall i j, (i < 1)%nat -> (j < 1)%nat -> i <> j -> 2 * (INR 1 + 1) / 10 ^ 14 <= Rabs (x i - x j).
Proof.
  destruct hermgauss_1 as (x & w & E & _). exists x, w. split; [exact E|]. intros; lia.
Qed.

Lemma weight_1 : hermite_weight 1 0 = sqrt PI.
Proof. unfold hermite_weight, hermite. simpl. field. Qed.
