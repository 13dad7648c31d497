(** Values of a policy and Bellman's equation, stated without any loop. *)
From Coq Require Import Reals List Arith.
From Verif.Base Require Import Prelude Sums.
Import ListNotations.
Open Scope R_scope.

(** Expected value at (m, s), controls [x], current value [v], when the next exogenous point is [M j] with
    probability [w j], [j < n], the policy followed then is [X j] and its value is [V j]. *)
Definition policy_value (g : list R -> list R -> list R -> list R -> list R)
    (val : list R -> list R -> list R -> list R -> list R -> list R -> list R -> list R -> nat -> R)
    (n : nat) (w : nat -> R) (M : nat -> list R) (X V : nat -> list R -> list R)
    (m s x v : list R) (k : nat) : R :=
  rsum n (fun j => let S := g m s x (M j) in w j * val m s x v (M j) S (X j S) (V j S) k).

(** The value equation does not read the current value, and is beta-Lipschitz in the future values
    (v = u(m,s,x) + beta E[v'] is). *)
Definition discounts (n_v : nat) (beta : R)
    (val : list R -> list R -> list R -> list R -> list R -> list R -> list R -> list R -> nat -> R) : Prop :=
  forall m s x v v' M S X V V' k c,
    (k < n_v)%nat ->
    (forall q, (q < n_v)%nat -> Rabs (nth q V 0 - nth q V' 0) <= c) ->
    Rabs (val m s x v M S X V k - val m s x v' M S X V' k) <= beta * c.

(** [n] weights that are probabilities. *)
Definition probability (n : nat) (w : nat -> R) : Prop :=
  (forall j, (j < n)%nat -> 0 <= w j) /\ rsum n w = 1.

(** Bellman's objective: felicity today plus the discounted expectation of [V] at the exogenous point reached. *)
Definition bellman (g : list R -> list R -> list R -> list R -> list R) (u : list R -> list R -> list R -> R)
    (beta : R) (n : nat) (w : nat -> R) (M : nat -> list R) (V : list R -> list R -> R) (m s x : list R) : R :=
  u m s x + beta * rsum n (fun j => w j * V (M j) (g m s x (M j))).

(** [x] is within the bounds, entry by entry. *)
Definition in_box (b : list (R * R)) (x : list R) : Prop :=
  Forall2 (fun lu y => fst lu <= y <= snd lu) b x.

(** On this box, and for every function equal to [h], the minimiser finds a minimum from any start. *)
Definition finds_minimum (minimize : (list R -> R) -> list R -> list (R * R) -> list R) (h : list R -> R) (b : list (R * R)) : Prop :=
  forall f x, (forall y, f y = h y) ->
    in_box b (minimize f x b) /\ forall y, in_box b y -> h (minimize f x b) <= h y.

(** The [n]-th iterate of [U] from [v]. *)
Fixpoint iterate {A} (U : A -> A) (n : nat) (v : A) : A :=
  match n with O => v | S n' => iterate U n' (U v) end.

(** Two rules built from node values at distance at most c are at distance at most K c everywhere
    (K = 1 for piecewise linear interpolation). *)
Definition interpolation_lipschitz (n_m n_im N n_v : nat) (K : R)
    (interpolate : (nat -> nat -> nat -> R) -> nat -> nat -> list R -> list R) : Prop :=
  forall v v' c, 0 <= c ->
    (forall i n k, (i < n_m)%nat -> (n < N)%nat -> (k < n_v)%nat -> Rabs (v i n k - v' i n k) <= c) ->
    forall i j p q, (i < n_m)%nat -> (j < n_im)%nat -> (q < n_v)%nat ->
      Rabs (nth q (interpolate v i j p) 0 - nth q (interpolate v' i j p) 0) <= K * c.
