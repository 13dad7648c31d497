(** Policy evaluation and value iteration: dolo/algos/value_iteration.py.  Same conventions as
    TimeIteration.v.  The rules are built without [dprocess] (73, 89, 281), so [eval_ijs] raises
    AttributeError over a Cartesian exogenous grid (decision_rule.py:136-148); that case is left out. *)
From Coq Require Import String Reals List Arith.
From Verif.Base Require Import Prelude Arrays Sums Norms Ext.
From Verif.Model Require Import Discretization Grids Distributions Processes DecisionRule TimeIteration
  ImprovedTimeIteration.
Import ListNotations.
Open Scope R_scope.

(** value_iteration.py:393: one entry of [val(m, s, x, v, M, S, X, V)]. *)
Definition val_fun := list R -> list R -> list R -> list R -> list R -> list R -> list R -> list R -> nat -> R.

(** value_iteration.py:222-227 [EvaluationResult]. *)
Record ep_result : Type := {
  ep_values : option tensor;  (* last argument of [mdrv.set_values]; None if it was never called *)
  ep_iterations : nat;
  ep_err : R
}.

Section Evaluate.
  Variable g : list R -> list R -> list R -> list R -> list R.
  Variable val : val_fun.
  Variable exo : dexo.
  Variable s : list (list R).
  Variable n_x n_v : nat.
  Notation dp := (ex_dp exo).
  Notation N := (length s).
  Notation node n := (nth n s []).

  (** value_iteration.py:367-397 [update_value]; [dr], [drv] are [dr.eval_ijs], [drv.eval_ijs] at one point.  The number
      of integration nodes of the first exogenous state is used for all of them (373). *)
  Definition update_value (x v : tensor) (dr drv : nat -> nat -> list R -> list R) : tensor :=
    for_range (ex_n exo) (fun i acc =>
      for_range (dp_n dp 0) (fun j acc =>
        fun i' n k =>
          if Nat.eqb i' i then
            let S := nth n (next_states g exo s n_x x i j) [] in
            acc i' n k + dp_weight dp i j *
              val (ex_node exo i) (node n) (at_node n_x x i n) (at_node n_v v i n) (dp_node dp i j) S (dr i j S) (drv i j S) k
          else acc i' n k) acc)
      (fun _ _ _ => 0).

  (** [mdrv.set_values(v); mdrv.eval_ijs(i, j, .)]. *)
  Variable interpolate : tensor -> nat -> nat -> list R -> list R.

  (** value_iteration.py:306-340; the ratio [err_SA] is only printed. *)
  Fixpoint ep_loop (x : tensor) (dr : nat -> nat -> list R -> list R) (tol : R)
      (fuel it : nat) (err : R) (v0 : tensor) (stored : option tensor) : ep_result :=
    let out := {| ep_values := stored; ep_iterations := it; ep_err := err |} in
    match fuel with
    | O => out
    | S fuel' =>
        if Rlt_dec tol err then
          let v := update_value x v0 dr (interpolate v0) in
          ep_loop x dr tol fuel' (S it) (tnorm (ex_n exo) N n_v (fun i n k => v i n k - v0 i n k)) v (Some v0)
        else out
    end.

  (** value_iteration.py:230-364 (details=True), from the controls at the nodes and the initial values.
      [abs(...).max()] raises ValueError on an empty array. *)
  Definition evaluate_policy (x : tensor) (dr : nat -> nat -> list R -> list R) (tol : R) (maxit : nat) (v0 : tensor)
    : res ep_result :=
    if andb (Nat.eqb (ex_n exo * N * n_v) 0) (andb (negb (Nat.eqb maxit 0)) (if Rlt_dec tol 10 then true else false))
    then Err ExcValue else Ok (ep_loop x dr tol maxit 0 10 v0 None).
End Evaluate.

(** value_iteration.py:209-219 [choice_value], first entry; [call j S] is [drv(j, S)] at one point. *)
Definition choice_value (g : list R -> list R -> list R -> list R -> list R) (felicity : list R -> list R -> list R -> R)
    (exo : dexo) (beta : R) (call : nat -> list R -> res (list R)) (i : nat) (s x : list R) : res R :=
  let m := ex_node exo i in
  bind (for_range_res (dp_n (ex_dp exo) i) (fun j acc =>
          let M := dp_node (ex_dp exo) i j in
          bind (call j (g m s x M)) (fun V =>
          match V with [] => Err ExcIndex | v :: _ => Ok (acc + dp_weight (ex_dp exo) i j * v) end)) 0)
       (fun c => Ok (felicity m s x + beta * c)).

(** value_iteration.py:209-219, for a value rule that never raises. *)
Definition choice_total (g : list R -> list R -> list R -> list R -> list R) (felicity : list R -> list R -> list R -> R)
    (exo : dexo) (beta : R) (V : nat -> list R -> R) (i : nat) (s x : list R) : R :=
  let m := ex_node exo i in
  felicity m s x + beta *
    for_range (dp_n (ex_dp exo) i) (fun j acc =>
      let M := dp_node (ex_dp exo) i j in acc + dp_weight (ex_dp exo) i j * V j (g m s x M)) 0.

(** value_iteration.py:193-206. *)
Record vi_result : Type := {
  vi_controls : tensor;
  vi_values : nat -> nat -> R;
  vi_iterations : nat;
  vi_x_converged : bool;
  vi_x_err : R;
  vi_v_converged : bool;
  vi_v_err : R
}.

(** value_iteration.py:99-100, 233-234. *)
Definition vi_tol_x : R := 1 / 100000.
Definition vi_tol_v : R := 1 / 10000000.
Definition ep_tol : R := 1 / 100000000.
Definition ep_maxit : nat := 2000.

Section ValueIteration.
  Variable g : list R -> list R -> list R -> list R -> list R.
  Variable felicity : list R -> list R -> list R -> R.
  Variable val : val_fun.
  Variable exo : dexo.
  Variable s : list (list R).
  Variable n_x : nat.
  Variable beta : R.
  Variable v0 : R.                                   (* calibrated value (one value only) *)
  Variable lb ub : list R -> list R -> list R.
  (** Rules of control and of value: [eval_ijs] at one point; the value rule called with an
      exogenous index; both rules evaluated at (i, node n). *)
  Variable interp_x : tensor -> nat -> nat -> list R -> list R.
  Variable interp_v : tensor -> nat -> nat -> list R -> list R.
  Variable call_v : tensor -> nat -> list R -> R.
  Variable node_x node_v : tensor -> tensor.
  (** scipy.optimize.minimize(valfun, x, bounds): [.x]. *)
  Variable minimize : (list R -> R) -> list R -> list (R * R) -> list R.
  Notation N := (length s).
  Notation node n := (nth n s []).

  (** value_iteration.py:130-156.  [x] is a view on the row of [controls], which holds [res.x] when the value is computed. *)
  Definition improve (w controls_0 : tensor) : tensor :=
    fun i n k =>
      let m := ex_node exo i in
      nth k (minimize (fun xx => - choice_total g felicity exo beta (call_v w) i (node n) xx)
                      (at_node n_x controls_0 i n)
                      (combine (lb m (node n)) (ub m (node n)))) 0.

  (** value_iteration.py:92-171.  [abs(...).max()] raises ValueError on an empty array (159).
      [w] holds the values given to the value rule by the previous evaluation. *)
  Fixpoint vi_loop (tol : R) (fuel it : nat) (err_v err_x : R) (controls_0 : tensor) (w : tensor)
      (last : option (tensor * (nat -> nat -> R))) : res (option (tensor * (nat -> nat -> R)) * nat * R * R) :=
    match fuel with
    | O => Ok (last, it, err_v, err_x)
    | S fuel' =>
        if orb (if Rlt_dec tol err_v then true else false) (if Rlt_dec vi_tol_x err_x then true else false) then
          let start := if Nat.ltb 2 (S it) then node_v w else fun _ _ k => nth k [v0] 0 in
          bind (evaluate_policy g val exo s n_x 1 interp_v (node_x controls_0) (interp_x controls_0) ep_tol ep_maxit start)
            (fun ev =>
          match ep_values ev with
          | None => Err ExcAttribute
          | Some w =>
              let values_0 := node_v w in
              let controls := improve w controls_0 in
              let values := fun i n =>
                choice_total g felicity exo beta (call_v w) i (node n) (at_node n_x controls i n) in
              if Nat.eqb (ex_n exo * N * n_x) 0 then Err ExcValue else
              let err_x := tnorm (ex_n exo) N n_x (fun i n k => controls i n k - controls_0 i n k) in
              let err_v := tnorm (ex_n exo) N 1 (fun i n k => values i n - values_0 i n k) in
              vi_loop tol fuel' (S it) err_v err_x controls w (Some (controls, values))
          end)
        else Ok (last, it, err_v, err_x)
    end.

  (** value_iteration.py:23-206 (details=True), from the calibrated controls; 187 raises NameError when the loop never ran. *)
  Definition value_iteration (tol : R) (maxit : nat) (x0 : list R) : res vi_result :=
    bind (vi_loop tol maxit 0 100 100 (fun _ _ k => nth k x0 0) (fun _ _ _ => 0) None) (fun a =>
    let '(last, it, err_v, err_x) := a in
    match last with
    | None => Err ExcName
    | Some (c, v) => Ok {| vi_controls := c; vi_values := v; vi_iterations := it;
                           vi_x_converged := if Rlt_dec err_x vi_tol_x then true else false; vi_x_err := err_x;
                           vi_v_converged := if Rlt_dec err_v vi_tol_v then true else false; vi_v_err := err_v |}
    end).
End ValueIteration.
