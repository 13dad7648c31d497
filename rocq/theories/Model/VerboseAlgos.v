(** What [egm], [evaluate_policy] and [value_iteration] print while they run, on top of Egm.v and ValueIteration.v:
    dolo/algos/egm.py 33-35, 77-138; dolo/algos/value_iteration.py 92-183, 306-350.  Rows are modelled by the numbers they
    show; times and the rules around the tables are left out. *)
From Coq Require Import Reals List Arith.
From Verif.Base Require Import Prelude Arrays Sums Norms Ext.
From Verif.Model Require Import Discretization Grids Distributions Processes DecisionRule TimeIteration
  ImprovedTimeIteration ValueIteration Egm Verbose.
Import ListNotations.
Open Scope R_scope.

(** A line of egm: [print(it, i_m, i_M)] (egm.py:110), which does not look at [verbose], or a row of the table (121). *)
Inductive egm_line : Type :=
| Bare (it i_m i_M : nat)
| Row (it : nat) (eta : R).

Section EgmLog.
  Variable exo : dexo.
  Variable is_iid : bool.
  Variable s : list R.
  Variable a : nat -> R.
  Variable N_a n_h : nat.
  Variable h : list R -> R -> R -> nat -> R.
  Variable gt : list R -> R -> list R -> R.
  Variable tau : list R -> R -> list R -> R.
  Variable atau : list R -> R -> R -> R.
  Variable lb ub : list R -> R -> ext.
  Variable dr0 : nat -> R -> R.
  Variable eval_linear : (nat -> R) -> (nat -> R) -> R -> R.
  Variable nan : R.

  (** egm.py:104-110: in the loops over the exogenous nodes and their integration nodes. *)
  Definition bare_lines (it : nat) : list egm_line :=
    concat (map (fun i => map (fun j => Bare it i j) (seq 0 (dp_n (ex_dp exo) i))) (seq 0 (ex_n exo))).

  (** egm.py:84-138, with the lines printed. *)
  Fixpoint egm_log (verbose : bool) (tol : R) (fuel it : nat) (sa0 xa0 : nat -> nat -> R)
      : list egm_line * res egm_result :=
    match fuel with
    | O => ([], Err ExcName)
    | S fuel' =>
        let dr := rule exo is_iid lb ub dr0 eval_linear nan it sa0 xa0 in
        let xa := egm_xa exo a n_h h gt tau dr in
        let sa := egm_sa exo a n_h h gt tau atau dr in
        let e := egm_error exo N_a it xa xa0 sa sa0 in
        let lines := bare_lines it ++ (if verbose then [Row it e] else []) in
        if Rlt_dec e tol then
          (lines, Ok {| egm_values := fun i n => rule exo is_iid lb ub dr0 eval_linear nan it sa0 xa0 i (nth n s 0);
                        egm_it := it; egm_converged := true; egm_eta := e |})
        else match fuel' with
             | O => (lines, Ok {| egm_values := fun i n => rule exo is_iid lb ub dr0 eval_linear nan it sa xa i (nth n s 0);
                                  egm_it := it; egm_converged := false; egm_eta := e |})
             | S _ => let (rest, r) := egm_log verbose tol fuel' (S it) sa xa in (lines ++ rest, r)
             end
    end.
End EgmLog.

(** A row of value_iteration.py:345-350; the gain is None for nan or inf. *)
Record ep_row : Type := EpRow { er_n : nat; er_error : R; er_gain : option R }.

Section EvaluateRows.
  Variable g : list R -> list R -> list R -> list R -> list R.
  Variable val : val_fun.
  Variable exo : dexo.
  Variable s : list (list R).
  Variable n_x n_v : nat.
  Variable interpolate : tensor -> nat -> nat -> list R -> list R.

  (** value_iteration.py:306-350 with verbose=True (the default); [prev]: [err_0], nan at first (321). *)
  Fixpoint ep_rows (x : tensor) (dr : nat -> nat -> list R -> list R) (tol : R)
      (fuel it : nat) (err : R) (prev : option R) (v0 : tensor) (stored : option tensor) : list ep_row * ep_result :=
    let out := {| ep_values := stored; ep_iterations := it; ep_err := err |} in
    match fuel with
    | O => ([], out)
    | S fuel' =>
        if Rlt_dec tol err then
          let v := update_value g val exo s n_x n_v x v0 dr (interpolate v0) in
          let e := tnorm (ex_n exo) (length s) n_v (fun i n k => v i n k - v0 i n k) in
          let (rows, r) := ep_rows x dr tol fuel' (S it) e (Some e) v (Some v0) in
          (EpRow (S it) e (gain prev e) :: rows, r)
        else ([], out)
    end.
End EvaluateRows.

(** A row of value_iteration.py:173-181. *)
Record vi_row : Type := ViRow {
  vr_n : nat; vr_error_v : R; vr_gain_v : option R; vr_error_x : R; vr_gain_x : option R; vr_eval_n : nat }.

Section ViRows.
  Variable g : list R -> list R -> list R -> list R -> list R.
  Variable felicity : list R -> list R -> list R -> R.
  Variable val : val_fun.
  Variable exo : dexo.
  Variable s : list (list R).
  Variable n_x : nat.
  Variable beta : R.
  Variable v0 : R.
  Variable lb ub : list R -> list R -> list R.
  Variable interp_x : tensor -> nat -> nat -> list R -> list R.
  Variable interp_v : tensor -> nat -> nat -> list R -> list R.
  Variable call_v : tensor -> nat -> list R -> R.
  Variable node_x node_v : tensor -> tensor.
  Variable minimize : (list R -> R) -> list R -> list (R * R) -> list R.

  (** value_iteration.py:92-181 with verbose=True.  [prev_v], [prev_x]: [err_v_0], [err_x_0], 0 at first (95, 98): the
      first gains are divisions by zero. *)
  Fixpoint vi_rows (tol : R) (fuel it : nat) (err_v err_x prev_v prev_x : R) (controls_0 : tensor) (w : tensor)
      (last : option (tensor * (nat -> nat -> R)))
      : list vi_row * res (option (tensor * (nat -> nat -> R)) * nat * R * R) :=
    match fuel with
    | O => ([], Ok (last, it, err_v, err_x))
    | S fuel' =>
        if orb (if Rlt_dec tol err_v then true else false) (if Rlt_dec vi_tol_x err_x then true else false) then
          let start := if Nat.ltb 2 (S it) then node_v w else fun _ _ k => nth k [v0] 0 in
          match evaluate_policy g val exo s n_x 1 interp_v (node_x controls_0) (interp_x controls_0) ep_tol ep_maxit start with
          | Err e => ([], Err e)
          | Ok ev =>
          match ep_values ev with
          | None => ([], Err ExcAttribute)
          | Some w =>
              let values_0 := node_v w in
              let controls := improve g felicity exo s n_x beta lb ub call_v minimize w controls_0 in
              let values := fun i n =>
                choice_total g felicity exo beta (call_v w) i (nth n s []) (at_node n_x controls i n) in
              if Nat.eqb (ex_n exo * length s * n_x) 0 then ([], Err ExcValue) else
              let err_x := tnorm (ex_n exo) (length s) n_x (fun i n k => controls i n k - controls_0 i n k) in
              let err_v := tnorm (ex_n exo) (length s) 1 (fun i n k => values i n - values_0 i n k) in
              let (rows, r) := vi_rows tol fuel' (S it) err_v err_x err_v err_x controls w (Some (controls, values)) in
              (ViRow (S it) err_v (gain (Some prev_v) err_v) err_x (gain (Some prev_x) err_x) (ep_iterations ev) :: rows, r)
          end
          end
        else ([], Ok (last, it, err_v, err_x))
    end.
End ViRows.
