(** Reading tomorrow's controls from a rule: what is asked of the interpolation library. *)
From Coq Require Import String Reals List Arith.
From Verif.Base Require Import Prelude Arrays.
From Verif.Spec Require Import Product.
From Verif.Model Require Import Grids DecisionRule.
Import ListNotations.
Open Scope R_scope.

(** Equal arrays. *)
Definition same_array (a b : nd) : Prop :=
  nd_shape a = nd_shape b /\ forall q, (q < prodn (nd_shape a))%nat -> nd_data a q = nd_data b q.

(** An array holding the numbers [x i n k]. *)
Definition array_of (n_m N n_x : nat) (x : nat -> nat -> nat -> R) (a : nd) : Prop :=
  nd_shape a = [n_m; N; n_x] /\
  forall i n k, (i < n_m)%nat -> (n < N)%nat -> (k < n_x)%nat -> nd_data a ((i * N + n) * n_x + k) = x i n k.

(** Points are interpolated one at a time and results depend on the entries of arrays only. *)
Definition interpolator (ev : grid -> nd -> list (list R) -> res (list (list R))) : Prop :=
  exists one : grid -> nd -> list R -> list R,
    (forall g c pts out, ev g c pts = Ok out -> out = map (one g c) pts) /\
    (forall g c c' p, same_array c c' -> one g c p = one g c' p).
Definition prefilter (pre : grid -> nd -> res nd) : Prop :=
  forall g c c' d, same_array c c' -> pre g c = Ok d -> exists d', pre g c' = Ok d' /\ same_array d d'.
