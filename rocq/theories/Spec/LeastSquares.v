(** Least squares, stated without the code. *)
From Coq Require Import Reals Arith.
From Verif.Base Require Import Sums.
Open Scope R_scope.

(** Sum of the squared entries of [A d - b]. *)
Definition square_error (rows n : nat) (A : nat -> nat -> R) (b d : nat -> R) : R :=
  rsum rows (fun r => (rsum n (fun j => A r j * d j) - b r) ^ 2).
Definition least_squares (rows n : nat) (A : nat -> nat -> R) (b d : nat -> R) : Prop :=
  forall e, square_error rows n A b d <= square_error rows n A b e.
