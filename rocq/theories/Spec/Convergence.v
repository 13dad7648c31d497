(** Vocabulary of convergence. *)
From Coq Require Import Reals List Arith.
From Verif.Base Require Import Prelude.
From Verif.Spec Require Import Euler Bellman.
From Verif.Model Require Import Processes TimeIteration.
Import ListNotations.
Open Scope R_scope.

(** All entries of two arrays of shape (a, b, c) differ by at most [e]. *)
Definition within (a b c : nat) (x y : nat -> nat -> nat -> R) (e : R) : Prop :=
  forall i n k, (i < a)%nat -> (n < b)%nat -> (k < c)%nat -> Rabs (x i n k - y i n k) <= e.

(** Expected arbitrage at node (i, n), controls [x] being used today and [rule] from the next date on. *)
Definition arbitrage_at (g : list R -> list R -> list R -> list R -> list R)
    (f : list R -> list R -> list R -> list R -> list R -> list R -> nat -> R)
    (exo : dexo) (s : list (list R)) (n_x : nat) (interpolate : tensor -> nat -> nat -> list R -> list R)
    (rule x : tensor) (i n k : nat) : R :=
  euler g f (dp_n (ex_dp exo) i) (dp_weight (ex_dp exo) i) (dp_node (ex_dp exo) i) (interpolate rule i)
        (ex_node exo i) (nth n s []) (at_node n_x x i n) k.

(** The rule built from node values moves by at most K e when the node values move by at most e. *)
Definition value_rule_lipschitz (exo : dexo) (N : nat) (W : tensor -> list R -> list R -> R) (K : R) : Prop :=
  forall w w' e, 0 <= e -> within (ex_n exo) N 1 w w' e ->
    forall i j S, (i < ex_n exo)%nat -> (j < dp_n (ex_dp exo) i)%nat ->
      Rabs (W w (dp_node (ex_dp exo) i j) S - W w' (dp_node (ex_dp exo) i j) S) <= K * e.

(** Bellman's objective at node (i, n) when the future value is that of the node values [v]. *)
Definition objective_at g u beta (exo : dexo) (s : list (list R)) (W : tensor -> list R -> list R -> R)
    (v : tensor) (i n : nat) (y : list R) : R :=
  bellman g u beta (dp_n (ex_dp exo) i) (dp_weight (ex_dp exo) i) (dp_node (ex_dp exo) i) (W v) (ex_node exo i) (nth n s []) y.

(** [vs] solves Bellman's equation: at every node it is the largest value of the objective over the bounds. *)
Definition bellman_solution g u beta (exo : dexo) (s : list (list R)) (W : tensor -> list R -> list R -> R)
    (lb ub : list R -> list R -> list R) (vs : tensor) : Prop :=
  forall i n, (i < ex_n exo)%nat -> (n < length s)%nat ->
    let box := combine (lb (ex_node exo i) (nth n s [])) (ub (ex_node exo i) (nth n s [])) in
    let J := objective_at g u beta exo s W vs i n in
    (exists y, in_box box y /\ vs i n 0%nat = J y) /\ forall y, in_box box y -> J y <= vs i n 0%nat.

(** [vc] is the value of following the controls [c] for ever. *)
Definition value_of_controls g u beta (exo : dexo) (s : list (list R)) (n_x : nat) (W : tensor -> list R -> list R -> R)
    (c vc : tensor) : Prop :=
  forall i n, (i < ex_n exo)%nat -> (n < length s)%nat ->
    vc i n 0%nat = objective_at g u beta exo s W vc i n (at_node n_x c i n).

(** The rule built from node values is an average of them: it does not exceed that of other node values by more than the
    node values do, and is zero if they are (piecewise linear interpolation within the grid). *)
Definition value_rule_averages (exo : dexo) (N : nat) (W : tensor -> list R -> list R -> R) : Prop :=
  forall i j S, (i < ex_n exo)%nat -> (j < dp_n (ex_dp exo) i)%nat ->
    (forall w w' c, (forall i n, (i < ex_n exo)%nat -> (n < N)%nat -> w i n 0%nat <= w' i n 0%nat + c) ->
       W w (dp_node (ex_dp exo) i j) S <= W w' (dp_node (ex_dp exo) i j) S + c) /\
    W (fun _ _ _ => 0) (dp_node (ex_dp exo) i j) S = 0.
