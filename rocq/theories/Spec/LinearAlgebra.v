(** Vocabulary for statements on square linear systems. *)
From Coq Require Import Reals Arith.
From Verif.Base Require Import Prelude Sums.
Open Scope R_scope.

(** [(A x)_i]. *)
Definition mat_vec (n : nat) (A : nat -> nat -> R) (x : nat -> R) (i : nat) : R :=
  rsum n (fun j => A i j * x j).

(** [A x = b], for [A] of shape (n,n). *)
Definition solves (n : nat) (A : nat -> nat -> R) (b x : nat -> R) : Prop :=
  forall i, (i < n)%nat -> mat_vec n A x i = b i.

(** [A] has a nonzero vector in its kernel. *)
Definition singular (n : nat) (A : nat -> nat -> R) : Prop :=
  exists z, (exists i, (i < n)%nat /\ z i <> 0) /\ solves n A (fun _ => 0) z.

(** Identity matrix. *)
Definition eye (i j : nat) : R := if Nat.eqb i j then 1 else 0.

(** Product of an (n x m) and an (m x p) matrix. *)
Definition mat_mul (m : nat) (A B : nat -> nat -> R) (i j : nat) : R :=
  rsum m (fun k => A i k * B k j).

(** An exact linear solver (the contract of numpy.linalg.solve): what it returns is the only
    solution; it raises on the other systems. *)
Definition exact_solver (solve : nat -> (nat -> nat -> R) -> (nat -> R) -> res (nat -> R)) : Prop :=
  forall n A b x, solve n A b = Ok x ->
    solves n A b x /\ (forall y, solves n A b y -> forall i, (i < n)%nat -> y i = x i).
