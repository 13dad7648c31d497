(** Vocabulary of Newton's method. *)
From Coq Require Import Reals Arith.
From Verif.Base Require Import Prelude Norms.
From Verif.Spec Require Import LinearAlgebra.
Open Scope R_scope.

(** Largest difference between the entries of two vectors. *)
Definition dist (n : nat) (x y : nat -> R) : R := supnorm n (fun i => x i - y i).

(** Within distance [r] of [xs]: the values of [f] are bounded by [M] times the distance to [xs]; the Jacobian has an
    inverse of norm at most [K]; the first-order expansion towards [xs] is exact up to [L] times the squared distance. *)
Definition regular_root (n : nat) (f : (nat -> R) -> (nat -> R) * (nat -> nat -> R)) (xs : nat -> R) (r K L M : R) : Prop :=
  forall x, dist n x xs <= r ->
    supnorm n (fst (f x)) <= M * dist n x xs /\
    (forall v, supnorm n v <= K * supnorm n (mat_vec n (snd (f x)) v)) /\
    dist n (fst (f x)) (mat_vec n (snd (f x)) (fun i => x i - xs i)) <= L * dist n x xs ^ 2.
