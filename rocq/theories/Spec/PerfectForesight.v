(** Perfect-foresight paths, stated without reference to the code. *)
From Coq Require Import Reals Arith.
From Verif.Base Require Import Ext Sums.
From Verif.Spec Require Import Complementarity.
Open Scope R_scope.

Section Paths.
  Variables n_s n_x : nat.
  (** Transition S = g(m, s, x, M), arbitrage f(m, s, x, M, S, X) = 0. *)
  Variable g : (nat -> R) -> (nat -> R) -> (nat -> R) -> (nat -> R) -> nat -> R.
  Variable f : (nat -> R) -> (nat -> R) -> (nat -> R) -> (nat -> R) -> (nat -> R) -> (nat -> R) -> nat -> R.

  (** Exogenous path [m], states [s], controls [x] at dates 0..T, started at [s_init]; controls are
      constant between the last two dates. *)
  Definition perfect_foresight (T : nat) (s_init : nat -> R) (m s x : nat -> nat -> R) : Prop :=
    (forall k, (k < n_s)%nat -> s 0%nat k = s_init k) /\
    (forall t, (t < T)%nat ->
       (forall k, (k < n_s)%nat -> s (S t) k = g (m t) (s t) (x t) (m (S t)) k) /\
       (forall k, (k < n_x)%nat -> f (m t) (s t) (x t) (m (S t)) (s (S t)) (x (S t)) k = 0)) /\
    (forall k, (k < n_x)%nat -> x T k = x (T - 1)%nat k).

  (** The same, every equation holding up to [d]. *)
  Definition perfect_foresight_within (d : R) (T : nat) (s_init : nat -> R) (m s x : nat -> nat -> R) : Prop :=
    (forall k, (k < n_s)%nat -> Rabs (s 0%nat k - s_init k) < d) /\
    (forall t, (t < T)%nat ->
       (forall k, (k < n_s)%nat -> Rabs (s (S t) k - g (m t) (s t) (x t) (m (S t)) k) < d) /\
       (forall k, (k < n_x)%nat -> Rabs (f (m t) (s t) (x t) (m (S t)) (s (S t)) (x (S t)) k) < d)) /\
    (forall k, (k < n_x)%nat -> Rabs (x T k - x (T - 1)%nat k) < d).

  (** The same with bounds on the controls: the arbitrage equations become complementarity conditions
      (up to [d]), and so does the terminal condition. *)
  Definition constrained_foresight_within (d : R) (lb ub : nat -> nat -> ext)
      (T : nat) (s_init : nat -> R) (m s x : nat -> nat -> R) : Prop :=
    (forall k, (k < n_s)%nat -> Rabs (s 0%nat k - s_init k) <= d) /\
    (forall t, (t < T)%nat ->
       (forall k, (k < n_s)%nat -> Rabs (s (S t) k - g (m t) (s t) (x t) (m (S t)) k) <= d) /\
       (forall k, (k < n_x)%nat ->
          mcp_approx d (lb t k) (ub t k) (x t k)
                     (f (m t) (s t) (x t) (m (S t)) (s (S t)) (x (S t)) k))) /\
    (forall k, (k < n_x)%nat -> mcp_approx d (lb T k) (ub T k) (x T k) (x (T - 1)%nat k - x T k)).

  (** [s], [x] a deterministic steady state at [m]. *)
  Definition steady_state (m s x : nat -> R) : Prop :=
    (forall k, (k < n_s)%nat -> g m s x m k = s k) /\
    (forall k, (k < n_x)%nat -> f m s x m s x k = 0).
End Paths.

(** States and controls read from the columns of a table whose first [n_s] columns are the states. *)
Definition states_of (n_s : nat) (p : nat -> nat -> R) : nat -> nat -> R :=
  fun t k => if Nat.ltb k n_s then p t k else 0.
Definition controls_of (n_s n_x : nat) (p : nat -> nat -> R) : nat -> nat -> R :=
  fun t k => if Nat.ltb k n_x then p t (n_s + k)%nat else 0.

(** Column [i] of an exogenous path follows the series [l], then stays at its last value. *)
Definition follows_then_stays (l : list R) (col : nat -> R) : Prop :=
  forall t, col t = List.nth (Nat.min t (List.length l - 1)) l 0.

(** [v] moved by [h] in the direction [d]. *)
Definition moved (v d : nat -> R) (h : R) : nat -> R := fun k => v k + h * d k.

(** Product of row [k] of a matrix with [n] columns and a vector. *)
Definition row_times (n : nat) (A : nat -> nat -> R) (d : nat -> R) (k : nat) : R :=
  Sums.rsum n (fun l => A k l * d l).

(** [g_s], [g_x] are the derivatives of [g] in its second and third arguments: the derivative of [g]
    when both move, in any directions. *)
Definition transition_derivatives (n_s n_x : nat)
    (g : (nat -> R) -> (nat -> R) -> (nat -> R) -> (nat -> R) -> nat -> R)
    (g_s g_x : (nat -> R) -> (nat -> R) -> (nat -> R) -> (nat -> R) -> nat -> nat -> R) : Prop :=
  forall m s x M ds dx k, (k < n_s)%nat ->
    derivable_pt_lim (fun h => g m (moved s ds h) (moved x dx h) M k) 0
      (row_times n_s (g_s m s x M) ds k + row_times n_x (g_x m s x M) dx k).

(** [f_s], [f_x], [f_S], [f_X] are the derivatives of [f] in its states and controls, today and
    tomorrow. *)
Definition arbitrage_derivatives (n_s n_x : nat)
    (f : (nat -> R) -> (nat -> R) -> (nat -> R) -> (nat -> R) -> (nat -> R) -> (nat -> R) -> nat -> R)
    (f_s f_x f_S f_X : (nat -> R) -> (nat -> R) -> (nat -> R) -> (nat -> R) -> (nat -> R) -> (nat -> R)
                       -> nat -> nat -> R) : Prop :=
  forall m s x M S X ds dx dS dX k, (k < n_x)%nat ->
    derivable_pt_lim
      (fun h => f m (moved s ds h) (moved x dx h) M (moved S dS h) (moved X dX h) k) 0
      (row_times n_s (f_s m s x M S X) ds k + row_times n_x (f_x m s x M S X) dx k +
       row_times n_s (f_S m s x M S X) dS k + row_times n_x (f_X m s x M S X) dX k).
