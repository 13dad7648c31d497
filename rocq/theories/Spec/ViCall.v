(** What interpolation does for [value_iteration]. *)
From Coq Require Import String Reals List Arith Bool.
From Verif.Base Require Import Prelude Arrays Sums.
From Verif.Model Require Import Grids Processes DecisionRule TimeIteration TimeIterationCall EvaluateCall ViCall.
Import ListNotations.
Open Scope R_scope.

(** Interpolation of arrays with [n] columns answers with [n] numbers. *)
Definition keeps_columns (spline : nat -> interp -> grid -> (nat -> nat -> R) -> list R -> list R) : Prop :=
  forall n k e v S, length (spline n k e v S) = n.

(** On the grid [e] it takes the given values at the nodes. *)
Definition exact_on (spline : nat -> interp -> grid -> (nat -> nat -> R) -> list R -> list R) (e : grid) : Prop :=
  forall n v p k, (p < length (endo_nodes e))%nat -> (k < n)%nat -> nth k (spline n Cubic e v (nth p (endo_nodes e) [])) 0 = v p k.

(** The page of the values that is read for the exogenous state number [i]: its own with a Markov chain, the first one
    with i.i.d. shocks. *)
Definition page (exo : grid) (i : nat) : nat := match exo with GEmpty => 0%nat | _ => i end.

(** The exogenous grids of Markov chains and of i.i.d. shocks. *)
Definition by_pages (exo : grid) : Prop := exo = GEmpty \/ exists p, exo = GUnstructured p.

(** A model with a Markov chain or with i.i.d. shocks: the grid is that of the process. *)
Definition discretized (md : vi_model) : Prop :=
  (exists c, wm_exo_grid md = GUnstructured (fst c) /\ wm_process md = mc_exo c) \/
  (exists q dim, wm_exo_grid md = GEmpty /\ wm_process md = iid_exo q dim).

(** The value next period in the exogenous state number [j] and the state [S], for the values [w] at the nodes. *)
Definition value_next (spline : nat -> interp -> grid -> (nat -> nat -> R) -> list R -> list R) (md : vi_model)
    (w : tensor) (j : nat) (S : list R) : R :=
  hd 0 (spline 1%nat Cubic (wm_endo_grid md) (w (page (wm_exo_grid md) j)) S).

(** Felicity of the controls [x] in the exogenous state number [i] and the state [p], plus the discounted expectation of
    the value next period. *)
Definition objective (spline : nat -> interp -> grid -> (nat -> nat -> R) -> list R -> list R) (md : vi_model) g
    (u : list R -> list R -> list R -> R) (beta : R) (w : tensor) (i : nat) (p x : list R) : R :=
  let d := wm_process md in let m := ex_node d i in
  u m p x + beta * rsum (dp_n (ex_dp d) i) (fun j =>
    dp_weight (ex_dp d) i j * value_next spline md w j (g m p x (dp_node (ex_dp d) i j))).

(** A cubic rule on the grids of the model, with these values. *)
Definition on_grids (md : vi_model) (x : tensor) : value_rule := ValueRule (wm_exo_grid md) (wm_endo_grid md) None Cubic (Some x).

(** The model has all that the algorithm reads. *)
Definition complete (md : vi_model) g u lb ub beta c val : Prop :=
  wm_transition md = Some g /\ wm_felicity md = Some u /\ wm_lb md = Some lb /\ wm_ub md = Some ub /\ wm_beta md = Some beta /\
  wm_v0 md = Some [c] /\ wm_value md = Some val.
