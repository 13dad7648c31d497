(** Equilibrium residuals, stated without any loop. *)
From Coq Require Import Reals List Arith.
From Verif.Base Require Import Prelude Sums.
Import ListNotations.
Open Scope R_scope.

(** Conditional expectation of the arbitrage function at exogenous point [m], state [s] and controls
    [x], when the next exogenous point is [M j] with probability [w j], [j < n], and the rule followed
    then is [X j]: E[ f(m, s, x, M', S', X'(S')) ] with S' = g(m, s, x, M'). *)
Definition euler (g : list R -> list R -> list R -> list R -> list R)
    (f : list R -> list R -> list R -> list R -> list R -> list R -> nat -> R)
    (n : nat) (w : nat -> R) (M : nat -> list R) (X : nat -> list R -> list R)
    (m s x : list R) (k : nat) : R :=
  rsum n (fun j => let S := g m s x (M j) in w j * f m s x (M j) S (X j S) k).

(** [y] is reached from [x] in exactly [n] updates. *)
Inductive updates {A} (U : A -> A -> Prop) : nat -> A -> A -> Prop :=
| upd_nil : forall x, updates U 0 x x
| upd_cons : forall n x y z, U x y -> updates U n y z -> updates U (S n) x z.

(** [e] is the largest distance between two arrays of shape (a, b, c). *)
Definition distance_is (a b c : nat) (x y : nat -> nat -> nat -> R) (e : R) : Prop :=
  (forall i n k, (i < a)%nat -> (n < b)%nat -> (k < c)%nat -> Rabs (x i n k - y i n k) <= e) /\
  (exists i n k, (i < a)%nat /\ (n < b)%nat /\ (k < c)%nat /\ Rabs (x i n k - y i n k) = e).
