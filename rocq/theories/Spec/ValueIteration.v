(** One pass of value iteration. *)
From Coq Require Import Reals List Arith.
From Verif.Base Require Import Prelude.
From Verif.Spec Require Import Euler Bellman.
From Verif.Model Require Import TimeIteration ValueIteration Processes.
Import ListNotations.
Open Scope R_scope.

(** [W] gives the value at any exogenous point and state, from the values at the nodes; the value rule
    called with the index [j] of a quadrature point gives the value at that point. *)
Definition index_is_point (exo : dexo) (call_v : tensor -> nat -> list R -> R) (W : tensor -> list R -> list R -> R) : Prop :=
  forall w i j S, (i < ex_n exo)%nat -> (j < dp_n (ex_dp exo) i)%nat -> call_v w j S = W w (dp_node (ex_dp exo) i j) S.

(** The values [v] are Bellman's objective at the controls [c], with the future value given by [w]. *)
Definition bellman_values g u beta (exo : dexo) (s : list (list R)) n_x (W : tensor -> list R -> list R -> R)
    (w c : tensor) (v : nat -> nat -> R) : Prop :=
  forall i n, (i < ex_n exo)%nat -> (n < length s)%nat ->
    v i n = bellman g u beta (dp_n (ex_dp exo) i) (dp_weight (ex_dp exo) i) (dp_node (ex_dp exo) i) (W w)
              (ex_node exo i) (nth n s []) (at_node n_x c i n).

(** The controls [c] are feasible and maximise Bellman's objective at every node. *)
Definition greedy g u beta (exo : dexo) (s : list (list R)) n_x (W : tensor -> list R -> list R -> R)
    (lb ub : list R -> list R -> list R) (w c : tensor) : Prop :=
  forall i n, (i < ex_n exo)%nat -> (n < length s)%nat ->
    let m := ex_node exo i in let p := nth n s [] in
    let J := bellman g u beta (dp_n (ex_dp exo) i) (dp_weight (ex_dp exo) i) (dp_node (ex_dp exo) i) (W w) m p in
    in_box (combine (lb m p) (ub m p)) (at_node n_x c i n) /\
    forall y, in_box (combine (lb m p) (ub m p)) y -> J y <= J (at_node n_x c i n).

(** The minimiser finds a maximum of Bellman's objective at every node, whatever the future values. *)
Definition maximises g u beta (exo : dexo) (s : list (list R)) (W : tensor -> list R -> list R -> R)
    (lb ub : list R -> list R -> list R) (minimize : (list R -> R) -> list R -> list (R * R) -> list R) : Prop :=
  forall w i n, (i < ex_n exo)%nat -> (n < length s)%nat ->
    let m := ex_node exo i in let p := nth n s [] in
    finds_minimum minimize
      (fun y => - bellman g u beta (dp_n (ex_dp exo) i) (dp_weight (ex_dp exo) i) (dp_node (ex_dp exo) i) (W w) m p y)
      (combine (lb m p) (ub m p)).
