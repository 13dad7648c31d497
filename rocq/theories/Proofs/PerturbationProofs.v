(** Proofs on first-order perturbation: algebra of the solution. *)
From Coq Require Import String Reals List Arith Lia Lra Bool.
From Verif.Base Require Import Prelude Ext Sums.
From Verif.Spec Require Import LinearAlgebra Perturbation.
From Verif.Proofs Require Import GaussFinal MatrixAlgebra.
Import ListNotations.
Open Scope R_scope.

Lemma mat_mul_plus_l : forall m A B C i j,
    mat_mul m (fun a b => A a b + B a b) C i j = mat_mul m A C i j + mat_mul m B C i j.
Proof. intros. unfold mat_mul. rewrite <- rsum_plus. apply rsum_ext. intros. ring. Qed.
Lemma mat_mul_opp_l : forall m A C i j, mat_mul m (fun a b => - A a b) C i j = - mat_mul m A C i j.
Proof. intros. unfold mat_mul. rewrite <- rsum_opp. apply rsum_ext. intros. ring. Qed.
Lemma mat_mul_split : forall n m A B i j,
    mat_mul (n + m) A B i j = mat_mul n A B i j + mat_mul m (fun a b => A a (n + b)%nat) (fun a b => B (n + a)%nat b) i j.
Proof. intros. unfold mat_mul. rewrite rsum_split. reflexivity. Qed.
Lemma mat_mul_0_l : forall m A C i j, (forall k, (k < m)%nat -> A i k = 0) -> mat_mul m A C i j = 0.
Proof. intros m A C i j H. apply rsum_0. intros k Hk. rewrite H by exact Hk. ring. Qed.
Lemma mat_mul_0_r : forall m A C i j, (forall k, (k < m)%nat -> C k j = 0) -> mat_mul m A C i j = 0.
Proof. intros m A C i j H. apply rsum_0. intros k Hk. rewrite H by exact Hk. ring. Qed.

Lemma orthogonal_inverse : forall n Q, orthogonal n Q -> is_inverse n (fun a b => Q b a) Q.
Proof. intros n Q H. apply right_inverse_left. exact H. Qed.

(** A Z = Q S. *)
Lemma schur_columns : forall n A S Q Z, orthogonal n Z ->
    (forall i j, (i < n)%nat -> (j < n)%nat -> A i j = mat_mul n (mat_mul n Q S) (fun a b => Z b a) i j) ->
    forall i j, (i < n)%nat -> (j < n)%nat -> mat_mul n A Z i j = mat_mul n Q S i j.
Proof.
  intros n A S Q Z HZ HA i j Hi Hj.
  rewrite (mat_mul_ext n A (mat_mul n (mat_mul n Q S) (fun a b => Z b a)) Z Z) by (intros; auto).
  rewrite mat_mul_assoc. apply mat_mul_eye_r; [exact Hj|exact HZ].
Qed.

Section Algebra.
  Variables n m : nat.
  Variables gs gx fs fx fS fX : nat -> nat -> R.
  Variables S T Q Z C : nat -> nat -> R.
  Hypothesis Hqz : generalized_schur (n + m) (lead n fS fX) (lag n gs gx fs fx) S T Q Z.
  Hypothesis HS21 : splits_at n (n + m) S.
  Hypothesis HT21 : splits_at n (n + m) T.
  (** C Z11 = Z21, Z11 invertible. *)
  Hypothesis HC : forall i j, (i < m)%nat -> (j < n)%nat -> mat_mul n C Z i j = Z (n + i)%nat j.
  Variable V : nat -> nat -> R.
  Hypothesis HV : is_inverse n Z V.

  Let Q21 : nat -> nat -> R := fun i j => Q (n + i)%nat j.
  Let P := motion m gs gx C.
  Let L : nat -> nat -> R := fun a b => fS a b + mat_mul m fX C a b.
  Let W : nat -> nat -> R := fun a b => fs a b + mat_mul m fx C a b.

  Lemma QS_split : forall U i j, splits_at n (n + m) U -> (j < n)%nat ->
      mat_mul (n + m) Q U i j = mat_mul n Q U i j.
  Proof.
    intros U i j HU Hj. rewrite mat_mul_split, Rplus_comm, mat_mul_0_r; [ring|].
    intros k Hk. apply HU; lia.
  Qed.

  Lemma via_C : forall F i j, (j < n)%nat ->
      mat_mul m F (fun a b => Z (n + a)%nat b) i j = mat_mul n (mat_mul m F C) Z i j.
  Proof.
    intros F i j Hj. rewrite mat_mul_assoc. apply mat_mul_ext; [reflexivity|].
    intros k Hk. symmetry. apply HC; assumption.
  Qed.

  Lemma A_top : forall i j, (i < n)%nat -> (j < n)%nat -> Z i j = mat_mul n Q S i j.
  Proof.
    intros i j Hi Hj. rewrite <- (QS_split S i j HS21 Hj).
    rewrite <- (schur_columns _ _ _ _ _ (schur_Z _ _ _ _ _ _ _ Hqz) (schur_A _ _ _ _ _ _ _ Hqz)) by lia.
    rewrite mat_mul_split, Rplus_comm, mat_mul_0_l.
    - rewrite (mat_mul_ext n (lead n fS fX) (fun a b => eye a b) Z Z).
      + rewrite mat_mul_eye_l; [ring|exact Hi|reflexivity].
      + intros k Hk. unfold lead. rewrite !(proj2 (Nat.ltb_lt _ _)) by lia. reflexivity.
      + reflexivity.
    - intros k Hk. unfold lead. rewrite (proj2 (Nat.ltb_lt i n)), (proj2 (Nat.ltb_ge (n + k) n)) by lia. reflexivity.
  Qed.

  Lemma A_bottom : forall i j, (i < m)%nat -> (j < n)%nat -> - mat_mul n L Z i j = mat_mul n Q21 S i j.
  Proof.
    intros i j Hi Hj.
    transitivity (mat_mul n Q S (n + i)%nat j); [|reflexivity]. rewrite <- (QS_split S _ j HS21 Hj).
    rewrite <- (schur_columns _ _ _ _ _ (schur_Z _ _ _ _ _ _ _ Hqz) (schur_A _ _ _ _ _ _ _ Hqz)) by lia.
    rewrite mat_mul_split. unfold L. rewrite mat_mul_plus_l, <- via_C by exact Hj.
    rewrite Ropp_plus_distr. unfold mat_mul. rewrite <- !rsum_opp. f_equal; apply rsum_ext; intros k Hk; unfold lead.
    - rewrite (proj2 (Nat.ltb_ge (n + i) n)), (proj2 (Nat.ltb_lt k n)) by lia.
      replace (n + i - n)%nat with i by lia. ring.
    - rewrite (proj2 (Nat.ltb_ge (n + i) n)), (proj2 (Nat.ltb_ge (n + k) n)) by lia.
      replace (n + i - n)%nat with i by lia. replace (n + k - n)%nat with k by lia. ring.
  Qed.

  Lemma B_top : forall i j, (i < n)%nat -> (j < n)%nat -> mat_mul n P Z i j = mat_mul n Q T i j.
  Proof.
    intros i j Hi Hj. rewrite <- (QS_split T i j HT21 Hj).
    rewrite <- (schur_columns _ _ _ _ _ (schur_Z _ _ _ _ _ _ _ Hqz) (schur_B _ _ _ _ _ _ _ Hqz)) by lia.
    rewrite mat_mul_split. unfold P, motion. rewrite mat_mul_plus_l, <- via_C by exact Hj.
    f_equal; apply rsum_ext; intros k Hk; unfold lag.
    - rewrite !(proj2 (Nat.ltb_lt _ _)) by lia. reflexivity.
    - rewrite (proj2 (Nat.ltb_lt i n)), (proj2 (Nat.ltb_ge (n + k) n)) by lia.
      replace (n + k - n)%nat with k by lia. reflexivity.
  Qed.

  Lemma B_bottom : forall i j, (i < m)%nat -> (j < n)%nat -> mat_mul n W Z i j = mat_mul n Q21 T i j.
  Proof.
    intros i j Hi Hj.
    transitivity (mat_mul n Q T (n + i)%nat j); [|reflexivity]. rewrite <- (QS_split T _ j HT21 Hj).
    rewrite <- (schur_columns _ _ _ _ _ (schur_Z _ _ _ _ _ _ _ Hqz) (schur_B _ _ _ _ _ _ _ Hqz)) by lia.
    rewrite mat_mul_split. unfold W. rewrite mat_mul_plus_l, <- via_C by exact Hj.
    f_equal; apply rsum_ext; intros k Hk; unfold lag.
    - rewrite (proj2 (Nat.ltb_ge (n + i) n)), (proj2 (Nat.ltb_lt k n)) by lia.
      replace (n + i - n)%nat with i by lia. reflexivity.
    - rewrite (proj2 (Nat.ltb_ge (n + i) n)), (proj2 (Nat.ltb_ge (n + k) n)) by lia.
      replace (n + i - n)%nat with i by lia. replace (n + k - n)%nat with k by lia. reflexivity.
  Qed.

  Lemma solution_equation : ~ singular n S -> solves_linear_model n m gs gx fs fx fS fX C.
  Proof.
    intros HS i j Hi Hj. fold P. destruct (inverse_exists n S HS) as (SI & HSI).
    set (D := fun a b => mat_mul n L Q a b + Q21 a b).
    assert (HD : forall b, (b < n)%nat -> D i b = 0).
    { apply (cancel_right n D S SI i HSI). intros b Hb. unfold D. rewrite mat_mul_plus_l, mat_mul_assoc.
      rewrite <- A_bottom by assumption.
      rewrite (mat_mul_ext n L L (mat_mul n Q S) Z); [ring|reflexivity|].
      intros k Hk. symmetry. apply A_top; assumption. }
    apply (cancel_right n (fun a b => W a b + mat_mul n L P a b) Z V i HV); [|exact Hj].
    intros b Hb. rewrite mat_mul_plus_l, B_bottom, mat_mul_assoc by assumption.
    rewrite (mat_mul_ext n L L (mat_mul n P Z) (mat_mul n Q T)).
    - rewrite <- mat_mul_assoc. transitivity (mat_mul n D T i b).
      + unfold D. rewrite mat_mul_plus_l. ring.
      + apply mat_mul_0_l. exact HD.
    - reflexivity.
    - intros k Hk. apply B_top; assumption.
  Qed.

  (** In the coordinates w = V s the dynamics are S11 w' = T11 w. *)
  Lemma dynamics : ~ singular n S -> forall s i, (i < n)%nat ->
      mat_vec n S (mat_vec n V (mat_vec n P s)) i = mat_vec n T (mat_vec n V s) i.
  Proof.
    intros HS s i Hi.
    assert (HU : is_inverse n Q (mat_mul n S V)).
    { apply right_inverse_left. intros a b Ha Hb. rewrite <- mat_mul_assoc.
      rewrite <- (proj1 HV a b Ha Hb). apply mat_mul_ext; [|reflexivity]. intros k Hk. symmetry. apply A_top; assumption. }
    rewrite <- mat_vec_mul.
    (* P s = P Z V s = Q T V s *)
    assert (HPs : forall a, (a < n)%nat -> mat_vec n P s a = mat_vec n Q (mat_vec n T (mat_vec n V s)) a).
    { intros a Ha. rewrite <- mat_vec_mul. rewrite <- mat_vec_mul.
      apply rsum_ext. intros b Hb. f_equal.
      rewrite <- (mat_mul_eye_r n P (mat_mul n Z V) a b Hb (proj1 HV)), <- mat_mul_assoc.
      apply mat_mul_ext; [|reflexivity]. intros k Hk. apply B_top; assumption. }
    transitivity (mat_vec n (mat_mul n S V) (mat_vec n Q (mat_vec n T (mat_vec n V s))) i).
    - apply rsum_ext. intros a Ha. rewrite HPs by exact Ha. reflexivity.
    - rewrite <- mat_vec_mul. apply mat_vec_eye_l; [exact Hi|exact (proj2 HU)].
  Qed.
End Algebra.

(** ** Sequences *)

Lemma abs_pow_small : forall a eps M, Rabs a < 1 -> 0 < eps -> exists K, forall k, (K <= k)%nat -> Rabs a ^ k * M < eps.
Proof.
  intros a eps M Ha He.
  destruct (Rle_dec M 0) as [HM|HM].
  - exists 0%nat. intros k _. assert (0 <= Rabs a ^ k) by (apply pow_le, Rabs_pos). nra.
  - destruct (pow_lt_1_zero (Rabs a) ltac:(rewrite Rabs_Rabsolu; exact Ha) (eps / M)) as (K & HK).
    { apply Rdiv_lt_0_compat; lra. }
    exists K. intros k Hk. specialize (HK k Hk). rewrite Rabs_pos_eq in HK by (apply pow_le, Rabs_pos).
    apply (Rmult_lt_compat_r M) in HK; [|lra]. replace (eps / M * M) with eps in HK by (field; lra). exact HK.
Qed.

(** y' = a y + b with |a| < 1 and b going to zero. *)
Lemma forced_recursion : forall a (y b : nat -> R), Rabs a < 1 -> Un_cv b 0 ->
    (forall k, y (S k) = a * y k + b k) -> Un_cv y 0.
Proof.
  intros a y b Ha Hb Hy eps He.
  assert (H1 : 0 < eps * (1 - Rabs a) / 2) by (apply Rdiv_lt_0_compat; [apply Rmult_lt_0_compat|]; lra).
  destruct (Hb _ H1) as (K & HK).
  assert (HK' : forall k, (K <= k)%nat -> Rabs (b k) < eps * (1 - Rabs a) / 2).
  { intros k Hk. specialize (HK k Hk). unfold R_dist in HK. rewrite Rminus_0_r in HK. exact HK. }
  assert (Hbound : forall j, Rabs (y (K + j)%nat) <= Rabs a ^ j * Rabs (y K) + eps / 2).
  { induction j as [|j IH].
    - rewrite Nat.add_0_r. cbn. lra.
    - replace (K + S j)%nat with (S (K + j)) by lia. rewrite Hy.
      eapply Rle_trans; [apply Rabs_triang|]. rewrite Rabs_mult. cbn [pow].
      specialize (HK' (K + j)%nat ltac:(lia)).
      pose proof (Rmult_le_compat_l (Rabs a) _ _ (Rabs_pos a) IH). nra. }
  destruct (abs_pow_small a (eps / 2) (Rabs (y K)) Ha ltac:(lra)) as (J & HJ).
  exists (K + J)%nat. intros k Hk. unfold R_dist. rewrite Rminus_0_r.
  replace k with (K + (k - K))%nat by lia.
  eapply Rle_lt_trans; [apply Hbound|]. specialize (HJ (k - K)%nat ltac:(lia)). lra.
Qed.

(** y = a y' with |a| < 1 and y bounded. *)
Lemma backward_recursion : forall a (y : nat -> R) M, Rabs a < 1 -> (forall k, Rabs (y k) <= M) ->
    (forall k, y k = a * y (S k)) -> forall k, y k = 0.
Proof.
  intros a y M Ha HM Hy k.
  assert (Hb : forall j k, Rabs (y k) <= Rabs a ^ j * M).
  { induction j as [|j IH]; intros q; cbn [pow]; [specialize (HM q); lra|].
    rewrite Hy, Rabs_mult, Rmult_assoc. apply Rmult_le_compat_l; [apply Rabs_pos|apply IH]. }
  destruct (Req_EM_T (y k) 0) as [E|E]; [exact E|].
  assert (Hp : 0 < Rabs (y k)) by (apply Rabs_pos_lt; exact E).
  destruct (abs_pow_small a (Rabs (y k)) M Ha Hp) as (K & HK).
  specialize (HK K (le_n K)). specialize (Hb K k). lra.
Qed.

Lemma Un_cv_scal0 : forall c u, Un_cv u 0 -> Un_cv (fun k => c * u k) 0.
Proof.
  intros c u Hu. replace 0 with (c * 0) by ring. apply (CV_mult (fun _ => c) u); [|exact Hu].
  intros eps He. exists 0%nat. intros. unfold R_dist. rewrite Rminus_eq_0, Rabs_R0. exact He.
Qed.
Lemma Un_cv_ext0 : forall (u v : nat -> R) l, (forall k, u k = v k) -> Un_cv u l -> Un_cv v l.
Proof. intros u v l H Hu eps He. destruct (Hu eps He) as (K & HK). exists K. intros k Hk. rewrite <- H. apply HK, Hk. Qed.
Lemma Un_cv_sum0 : forall n (u : nat -> nat -> R), (forall i, (i < n)%nat -> Un_cv (u i) 0) ->
    Un_cv (fun k => rsum n (fun i => u i k)) 0.
Proof.
  induction n as [|n IH]; intros u H; cbn [rsum].
  - intros eps He. exists 0%nat. intros. unfold R_dist. rewrite Rminus_eq_0, Rabs_R0. exact He.
  - replace 0 with (0 + 0) by ring. apply (CV_plus (fun k => rsum n (fun i => u i k)) (u n)); [apply IH|]; auto.
Qed.

(** Triangular recursion S w' = T w with stable roots. *)
Lemma triangular_stable : forall n S T (w : nat -> nat -> R),
    upper_triangular n S -> upper_triangular n T -> (forall i, (i < n)%nat -> stable_root S T i) ->
    (forall k i, (i < n)%nat -> mat_vec n S (w (Datatypes.S k)) i = mat_vec n T (w k) i) ->
    forall i, (i < n)%nat -> Un_cv (fun k => w k i) 0.
Proof.
  intros n S T w HS HT Hst Hw.
  assert (H : forall d i, (d = n - 1 - i)%nat -> (i < n)%nat -> Un_cv (fun k => w k i) 0).
  { induction d as [d IH] using lt_wf_ind. intros i Hd Hi.
    assert (Hs : S i i <> 0).
    { intros E. specialize (Hst i Hi). unfold stable_root in Hst. rewrite E, Rabs_R0 in Hst.
      pose proof (Rabs_pos (T i i)). lra. }
    assert (Hsplit : forall U v, upper_triangular n U ->
              mat_vec n U v i = U i i * v i + rsum (n - 1 - i) (fun j => U i (i + 1 + j)%nat * v (i + 1 + j)%nat)).
    { intros U v HU. unfold mat_vec. replace n with (i + (1 + (n - 1 - i)))%nat at 1 by lia.
      rewrite !rsum_split. rewrite (rsum_0 i).
      - cbn [rsum]. replace (i + 0)%nat with i by lia. rewrite Rplus_0_l, Rplus_0_l. f_equal.
        apply rsum_ext. intros j Hj. replace (i + (1 + j))%nat with (i + 1 + j)%nat by lia. reflexivity.
      - intros j Hj. rewrite HU by lia. ring. }
    apply (forced_recursion (T i i / S i i) _
             (fun k => rsum (n - 1 - i) (fun j => T i (i + 1 + j)%nat / S i i * w k (i + 1 + j)%nat
                                                  - S i (i + 1 + j)%nat / S i i * w (Datatypes.S k) (i + 1 + j)%nat))).
    - unfold Rdiv. rewrite Rabs_mult, Rabs_inv. apply (Rmult_lt_reg_r (Rabs (S i i))).
      + apply Rabs_pos_lt, Hs.
      + rewrite Rmult_assoc, Rinv_l, Rmult_1_l, Rmult_1_r by (apply Rabs_no_R0, Hs). apply Hst, Hi.
    - apply Un_cv_sum0. intros j Hj.
      assert (Hcv : Un_cv (fun k => w k (i + 1 + j)%nat) 0) by (apply (IH (n - 1 - (i + 1 + j))%nat); lia).
      replace 0 with (0 - 0) by ring. apply (CV_minus (fun k => T i (i + 1 + j)%nat / S i i * w k (i + 1 + j)%nat)
                   (fun k => S i (i + 1 + j)%nat / S i i * w (Datatypes.S k) (i + 1 + j)%nat)).
      + apply (Un_cv_scal0 (T i (i + 1 + j)%nat / S i i) (fun k => w k (i + 1 + j)%nat)), Hcv.
      + apply (Un_cv_scal0 (S i (i + 1 + j)%nat / S i i) (fun k => w (Datatypes.S k) (i + 1 + j)%nat)).
        intros eps He. destruct (Hcv eps He) as (K & HK). exists K. intros k Hk. apply HK. lia.
    - intros k. specialize (Hw k i Hi). rewrite (Hsplit S _ HS), (Hsplit T _ HT) in Hw.
      rewrite rsum_minus.
      rewrite (rsum_ext _ (fun j => T i (i + 1 + j)%nat / S i i * w k (i + 1 + j)%nat)
                 (fun j => / S i i * (T i (i + 1 + j)%nat * w k (i + 1 + j)%nat))) by (intros; unfold Rdiv; ring).
      rewrite (rsum_ext _ (fun j => S i (i + 1 + j)%nat / S i i * w (Datatypes.S k) (i + 1 + j)%nat)
                 (fun j => / S i i * (S i (i + 1 + j)%nat * w (Datatypes.S k) (i + 1 + j)%nat))) by (intros; unfold Rdiv; ring).
      rewrite !rsum_scal.
      apply (Rmult_eq_reg_l (S i i)); [|exact Hs].
      match goal with |- ?l = ?r => assert (E : r = T i i * w k i +
         rsum (n - 1 - i) (fun j => T i (i + 1 + j)%nat * w k (i + 1 + j)%nat) -
         rsum (n - 1 - i) (fun j => S i (i + 1 + j)%nat * w (Datatypes.S k) (i + 1 + j)%nat)) by (field; exact Hs) end.
      rewrite E. lra. }
  intros i Hi. apply (H (n - 1 - i)%nat); [reflexivity|exact Hi].
Qed.

(** Triangular recursion T y = S y' on the rows n..n+m-1 with unstable roots: bounded only if zero. *)
Lemma triangular_unstable : forall n m S T (y : nat -> nat -> R),
    upper_triangular (n + m) S -> upper_triangular (n + m) T ->
    (forall i, (n <= i)%nat -> (i < n + m)%nat -> unstable_root S T i) ->
    (forall k i, (n <= i)%nat -> (i < n + m)%nat -> mat_vec (n + m) T (y k) i = mat_vec (n + m) S (y (Datatypes.S k)) i) ->
    (forall i, (n <= i)%nat -> (i < n + m)%nat -> exists M, forall k, Rabs (y k i) <= M) ->
    forall i k, (n <= i)%nat -> (i < n + m)%nat -> y k i = 0.
Proof.
  intros n m S T y HS HT Hun Hy HM.
  assert (H : forall d i, (d = n + m - 1 - i)%nat -> (n <= i)%nat -> (i < n + m)%nat -> forall k, y k i = 0).
  { induction d as [d IH] using lt_wf_ind. intros i Hd Hn Hi.
    assert (Hs : T i i <> 0).
    { intros E. specialize (Hun i Hn Hi). unfold unstable_root in Hun. rewrite E, Rabs_R0 in Hun.
      pose proof (Rabs_pos (S i i)). lra. }
    assert (Hone : forall U k, upper_triangular (n + m) U -> mat_vec (n + m) U (y k) i = U i i * y k i).
    { intros U k HU. unfold mat_vec. apply (rsum_single (n + m) i); [exact Hi|].
      intros j Hj Hne. destruct (lt_dec j i).
      - rewrite HU by assumption. ring.
      - rewrite (IH (n + m - 1 - j)%nat) by lia. ring. }
    destruct (HM i Hn Hi) as (M & HMi).
    apply (backward_recursion (S i i / T i i) (fun k => y k i) M); [|exact HMi|].
    - unfold Rdiv. rewrite Rabs_mult, Rabs_inv. apply (Rmult_lt_reg_r (Rabs (T i i))).
      + apply Rabs_pos_lt, Hs.
      + rewrite Rmult_assoc, Rinv_l, Rmult_1_l, Rmult_1_r by (apply Rabs_no_R0, Hs). apply Hun; assumption.
    - intros k. specialize (Hy k i Hn Hi). rewrite !Hone in Hy by assumption.
      apply (Rmult_eq_reg_l (T i i)); [|exact Hs]. rewrite Hy. field. exact Hs. }
  intros i k Hn Hi. apply (H (n + m - 1 - i)%nat); auto.
Qed.
