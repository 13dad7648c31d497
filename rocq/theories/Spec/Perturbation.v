(** Vocabulary for the statements on first-order perturbation.  The linearised model is
      s' = gs s + gx x,   fs s + fx x + fS s' + fX x' = 0,
    with n states and m controls; a linear rule is x = C s. *)
From Coq Require Import Reals Arith List.
From Verif.Base Require Import Prelude Ext Sums.
From Verif.Spec Require Import LinearAlgebra.
Open Scope R_scope.

(** Law of motion of the states under the rule. *)
Definition motion (m : nat) (gs gx C : nat -> nat -> R) : nat -> nat -> R :=
  fun i j => gs i j + mat_mul m gx C i j.

(** The conditions hold at all states: fs + fx C + (fS + fX C) (gs + gx C) = 0. *)
Definition solves_linear_model (n m : nat) (gs gx fs fx fS fX C : nat -> nat -> R) : Prop :=
  forall i j, (i < m)%nat -> (j < n)%nat ->
    fs i j + mat_mul m fx C i j +
    mat_mul n (fun a b => fS a b + mat_mul m fX C a b) (motion m gs gx C) i j = 0.

(** Trajectory of the states from [s]. *)
Fixpoint trajectory (n : nat) (P : nat -> nat -> R) (s : nat -> R) (t : nat) : nat -> R :=
  match t with O => s | S t' => mat_vec n P (trajectory n P s t') end.

Definition converges (n : nat) (P : nat -> nat -> R) : Prop :=
  forall s i, (i < n)%nat -> Un_cv (fun t => trajectory n P s t i) 0.
Definition nonexplosive (n : nat) (P : nat -> nat -> R) : Prop :=
  forall s i, (i < n)%nat -> exists M, forall t, Rabs (trajectory n P s t i) <= M.

(** The matrix pencil: lead (s', x') = lag (s, x). *)
Definition lead (n : nat) (fS fX : nat -> nat -> R) : nat -> nat -> R := fun i j =>
  if Nat.ltb i n then (if Nat.ltb j n then eye i j else 0)
  else (if Nat.ltb j n then - fS (i - n)%nat j else - fX (i - n)%nat (j - n)%nat).
Definition lag (n : nat) (gs gx fs fx : nat -> nat -> R) : nat -> nat -> R := fun i j =>
  if Nat.ltb i n then (if Nat.ltb j n then gs i j else gx i (j - n)%nat)
  else (if Nat.ltb j n then fs (i - n)%nat j else fx (i - n)%nat (j - n)%nat).

(** Generalised Schur decomposition: A = Q S Z', B = Q T Z' with Q, Z orthogonal. *)
Definition orthogonal (n : nat) (Q : nat -> nat -> R) : Prop :=
  forall i j, (i < n)%nat -> (j < n)%nat -> mat_mul n (fun a b => Q b a) Q i j = eye i j.
Record generalized_schur (n : nat) (A B S T Q Z : nat -> nat -> R) : Prop := {
  schur_A : forall i j, (i < n)%nat -> (j < n)%nat -> A i j = mat_mul n (mat_mul n Q S) (fun a b => Z b a) i j;
  schur_B : forall i j, (i < n)%nat -> (j < n)%nat -> B i j = mat_mul n (mat_mul n Q T) (fun a b => Z b a) i j;
  schur_Q : orthogonal n Q;
  schur_Z : orthogonal n Z }.

(** No entry below the diagonal; the weaker condition that the first [p] columns have none below row [p]
    (no pair of conjugate eigenvalues is cut in two). *)
Definition upper_triangular (n : nat) (S : nat -> nat -> R) : Prop :=
  forall i j, (j < i)%nat -> (i < n)%nat -> S i j = 0.
Definition splits_at (p n : nat) (S : nat -> nat -> R) : Prop :=
  forall i j, (p <= i)%nat -> (i < n)%nat -> (j < p)%nat -> S i j = 0.

(** The generalised eigenvalue at position [i], which multiplies the states at each date, is t_ii/s_ii. *)
Definition stable_root (S T : nat -> nat -> R) (i : nat) : Prop := Rabs (T i i) < Rabs (S i i).
Definition unstable_root (S T : nat -> nat -> R) (i : nat) : Prop := Rabs (S i i) < Rabs (T i i).
(** Blanchard-Kahn: as many stable roots as states, the others are unstable. *)
Definition blanchard_kahn (n m : nat) (S T : nat -> nat -> R) : Prop :=
  (forall i, (i < n)%nat -> stable_root S T i) /\
  (forall i, (n <= i)%nat -> (i < n + m)%nat -> unstable_root S T i).

(** What ordqz returns when all eigenvalues are real: a decomposition in triangular matrices, in which
    the pairs with s_ii^2 > c t_ii^2 come first. *)
Definition selected (c : R) (S T : nat -> nat -> R) (i : nat) : Prop := c * T i i ^ 2 < S i i ^ 2.
Record ordered_schur (n : nat) (c : R) (A B S T Q Z : nat -> nat -> R) : Prop := {
  os_schur : generalized_schur n A B S T Q Z;
  os_S : upper_triangular n S;
  os_T : upper_triangular n T;
  os_order : forall i j, (i < j)%nat -> (j < n)%nat -> selected c S T j -> selected c S T i }.

(** Value of a first-order expansion at (m, s). *)
Definition expansion (Cm Cs : nat -> nat -> R) (m0 s0 x0 m s : list R) (k : nat) : R :=
  nth k x0 0 + rsum (length m0) (fun j => Cm k j * (nth j m 0 - nth j m0 0))
             + rsum (length s0) (fun j => Cs k j * (nth j s 0 - nth j s0 0)).
