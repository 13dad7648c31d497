(** Products and inverses of matrices given by their entries. *)
From Coq Require Import Reals Arith Lia Lra.
From Verif.Base Require Import Prelude Sums.
From Verif.Spec Require Import LinearAlgebra.
From Verif.Model Require Import LinearSolve.
From Verif.Proofs Require Import GaussFinal.
Open Scope R_scope.

Lemma mat_mul_ext : forall m A A' B B' i j,
    (forall k, (k < m)%nat -> A i k = A' i k) -> (forall k, (k < m)%nat -> B k j = B' k j) ->
    mat_mul m A B i j = mat_mul m A' B' i j.
Proof. intros m A A' B B' i j HA HB. apply rsum_ext. intros k Hk. rewrite HA, HB by exact Hk. reflexivity. Qed.

Lemma mat_mul_assoc : forall m k A B C i j,
    mat_mul m (mat_mul k A B) C i j = mat_mul k A (mat_mul m B C) i j.
Proof.
  intros m k A B C i j. unfold mat_mul.
  rewrite (rsum_ext m _ (fun a => rsum k (fun b => A i b * B b a * C a j))).
  2: { intros a _. rewrite <- rsum_scal_r. reflexivity. }
  rewrite rsum_swap. apply rsum_ext. intros b _. rewrite <- rsum_scal. apply rsum_ext. intros a _. ring.
Qed.

Lemma mat_vec_mul : forall m k A B x i, mat_vec m (mat_mul k A B) x i = mat_vec k A (mat_vec m B x) i.
Proof. intros m k A B x i. exact (mat_mul_assoc m k A B (fun a _ => x a) i 0). Qed.

Lemma mat_mul_eye_r : forall n A E i j, (j < n)%nat ->
    (forall k l, (k < n)%nat -> (l < n)%nat -> E k l = eye k l) -> mat_mul n A E i j = A i j.
Proof.
  intros n A E i j Hj HE. unfold mat_mul. rewrite (rsum_single n j).
  - rewrite HE by assumption. unfold eye. rewrite Nat.eqb_refl. ring.
  - exact Hj.
  - intros k Hk Hne. rewrite HE by assumption. unfold eye. destruct (Nat.eqb_spec k j); [contradiction|ring].
Qed.
Lemma mat_mul_eye_l : forall n A E i j, (i < n)%nat ->
    (forall k l, (k < n)%nat -> (l < n)%nat -> E k l = eye k l) -> mat_mul n E A i j = A i j.
Proof.
  intros n A E i j Hi HE. unfold mat_mul. rewrite (rsum_single n i).
  - rewrite HE by assumption. unfold eye. rewrite Nat.eqb_refl. ring.
  - exact Hi.
  - intros k Hk Hne. rewrite HE by assumption. unfold eye. destruct (Nat.eqb_spec i k); [congruence|ring].
Qed.
Lemma mat_vec_eye_l : forall n x E i, (i < n)%nat ->
    (forall k l, (k < n)%nat -> (l < n)%nat -> E k l = eye k l) -> mat_vec n E x i = x i.
Proof. intros n x E i Hi HE. exact (mat_mul_eye_l n (fun a _ => x a) E i 0 Hi HE). Qed.

Definition is_inverse (n : nat) (A X : nat -> nat -> R) : Prop :=
  (forall i j, (i < n)%nat -> (j < n)%nat -> mat_mul n A X i j = eye i j) /\
  (forall i j, (i < n)%nat -> (j < n)%nat -> mat_mul n X A i j = eye i j).

Lemma right_inverse_exists : forall n A, ~ singular n A ->
    exists X, forall i j, (i < n)%nat -> (j < n)%nat -> mat_mul n A X i j = eye i j.
Proof.
  intros n A HA. pose proof (invert_gu_correct n A) as H.
  destruct (invert_gu n A) as [X|e]; [exists X; apply H|contradiction].
Qed.

(** A right inverse is a left inverse. *)
Lemma right_inverse_left : forall n A X,
    (forall i j, (i < n)%nat -> (j < n)%nat -> mat_mul n A X i j = eye i j) -> is_inverse n A X.
Proof.
  intros n A X H. split; [exact H|].
  assert (HX : ~ singular n X).
  { intros (z & (i & Hi & Hne) & Hz). apply Hne.
    rewrite <- (mat_vec_eye_l n z (mat_mul n A X) i Hi H). rewrite mat_vec_mul.
    unfold mat_vec. apply rsum_0. intros k Hk. fold (mat_vec n X z k). rewrite (Hz k Hk). ring. }
  destruct (right_inverse_exists n X HX) as (Y & HY).
  assert (E : forall i j, (i < n)%nat -> (j < n)%nat -> A i j = Y i j).
  { intros i j Hi Hj. rewrite <- (mat_mul_eye_r n A (mat_mul n X Y) i j Hj HY).
    rewrite <- mat_mul_assoc. apply (mat_mul_eye_l n Y _ i j Hi H). }
  intros i j Hi Hj. rewrite <- (HY i j Hi Hj). apply mat_mul_ext; [reflexivity|].
  intros k Hk. apply E; assumption.
Qed.

Lemma inverse_exists : forall n A, ~ singular n A -> exists X, is_inverse n A X.
Proof. intros n A HA. destruct (right_inverse_exists n A HA) as (X & HX). exists X. apply right_inverse_left, HX. Qed.

Lemma inverse_nonsingular : forall n A X, is_inverse n A X -> ~ singular n A.
Proof.
  intros n A X (_ & H) (z & (i & Hi & Hne) & Hz). apply Hne.
  rewrite <- (mat_vec_eye_l n z (mat_mul n X A) i Hi H). rewrite mat_vec_mul.
  apply rsum_0. intros k Hk. fold (mat_vec n A z k). rewrite (Hz k Hk). ring.
Qed.

(** Cancelling an invertible factor on the right. *)
Lemma cancel_right : forall n M A X i, is_inverse n A X ->
    (forall j, (j < n)%nat -> mat_mul n M A i j = 0) -> forall j, (j < n)%nat -> M i j = 0.
Proof.
  intros n M A X i (HX & _) H j Hj.
  rewrite <- (mat_mul_eye_r n M (mat_mul n A X) i j Hj HX). rewrite <- mat_mul_assoc.
  apply rsum_0. intros k Hk. rewrite H by exact Hk. ring.
Qed.

Definition transpose (A : nat -> nat -> R) : nat -> nat -> R := fun i j => A j i.

Lemma inverse_transpose : forall n A X, is_inverse n A X -> is_inverse n (transpose A) (transpose X).
Proof.
  intros n A X (H1 & H2). split; intros i j Hi Hj.
  - replace (eye i j) with (eye j i) by (unfold eye; rewrite Nat.eqb_sym; reflexivity).
    rewrite <- (H2 j i Hj Hi). apply rsum_ext. intros k _. unfold transpose. ring.
  - replace (eye i j) with (eye j i) by (unfold eye; rewrite Nat.eqb_sym; reflexivity).
    rewrite <- (H1 j i Hj Hi). apply rsum_ext. intros k _. unfold transpose. ring.
Qed.

(** An upper triangular matrix with a nonzero diagonal is invertible. *)
Lemma triangular_nonsingular : forall n A,
    (forall i j, (j < i)%nat -> (i < n)%nat -> A i j = 0) -> (forall i, (i < n)%nat -> A i i <> 0) ->
    ~ singular n A.
Proof.
  intros n A HT HD (z & (i0 & Hi0 & Hne) & Hz). apply Hne. clear Hne.
  assert (H : forall d i, (d = n - 1 - i)%nat -> (i < n)%nat -> z i = 0).
  { induction d as [d IH] using lt_wf_ind. intros i Hd Hi. specialize (Hz i Hi). cbv beta in Hz. unfold mat_vec in Hz.
    rewrite (rsum_single n i) in Hz; [|exact Hi|].
    - apply Rmult_integral in Hz. destruct Hz as [Hz|Hz]; [destruct (HD i Hi Hz)|exact Hz].
    - intros j Hj Hne. destruct (lt_dec j i).
      + rewrite HT by assumption. ring.
      + rewrite (IH (n - 1 - j)%nat) by lia. ring. }
  apply (H (n - 1 - i0)%nat); [reflexivity|exact Hi0].
Qed.
