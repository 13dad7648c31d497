(** Vocabulary for the convergence of solvers of complementarity problems. *)
From Coq Require Import Reals Arith.
From Verif.Base Require Import Prelude Norms Ext.
From Verif.Spec Require Import LinearAlgebra NewtonRoot.
Open Scope R_scope.

(** Near [xs], the matrix returned by the system changes at most in proportion to the distance to [xs], and the first-order
    expansion of the values towards [xs] is exact up to a multiple of the squared distance (both hold with a derivative that
    is Lipschitz continuous). *)
Definition smooth_system (n : nat) (f : (nat -> R) -> (nat -> R) * (nat -> nat -> R)) (xs : nat -> R) : Prop :=
  exists r L, 0 < r /\ 0 <= L /\ forall x, dist n x xs <= r ->
    (forall v, dist n (mat_vec n (snd (f x)) v) (mat_vec n (snd (f xs)) v) <= L * dist n x xs * supnorm n v) /\
    dist n (fst (f x)) (fun i => fst (f xs) i + mat_vec n (snd (f x)) (fun j => x j - xs j) i) <= L * dist n x xs ^ 2.

(** The component is strictly between its bounds. *)
Definition inside (a b : ext) (x : R) : Prop := ext_lt_l a x /\ ext_lt_r x b.

(** A strict solution of one complementarity condition: strictly inside the bounds with a zero value, or at the lower bound
    with a positive value, or at the upper bound with a negative value. *)
Definition strict_solution (a b : ext) (x f : R) : Prop :=
  (inside a b x /\ f = 0) \/ (a = Fin x /\ ext_lt_r x b /\ 0 < f) \/ (b = Fin x /\ ext_lt_l a x /\ f < 0).

(** With the components at their bounds kept there, no other direction leaves the values of the components inside unchanged
    at first order. *)
Definition regular_inside (n : nat) (a b : nat -> ext) (x : nat -> R) (J : nat -> nat -> R) : Prop :=
  forall v,
    (forall i, (i < n)%nat -> ~ inside (a i) (b i) (x i) -> v i = 0) ->
    (forall i, (i < n)%nat -> inside (a i) (b i) (x i) -> mat_vec n J v i = 0) ->
    forall i, (i < n)%nat -> v i = 0.
