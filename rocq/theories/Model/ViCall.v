(** The call of [value_iteration] with its options: dolo/algos/value_iteration.py, lines 16-206, on top of EvaluateCall.v
    and ValueIteration.v.  Printing and timings are left out. *)
From Coq Require Import String Reals List Arith Bool.
From Verif.Base Require Import Prelude Arrays Norms Ext.
From Verif.Model Require Import Grids Distributions Processes DecisionRule TimeIteration TimeIterationCall
  ImprovedTimeIteration ValueIteration EvaluateCall.
Import ListNotations.
Open Scope R_scope.

(** What is read of a model (51-68): its functions (None: there is none of this name), the calibrated value of the
    symbol "beta" (None: no such symbol), the calibrated controls and values, the results of [model.discretize()].
    An UnstructuredGrid comes from a Markov chain, whose integration nodes are its nodes: no page is missing. *)
Record vi_model : Type := ViModel {
  wm_exo_grid : grid;
  wm_endo_grid : grid;
  wm_process : dexo;
  wm_x0 : list R;
  wm_v0 : option (list R);
  wm_beta : option R;
  wm_transition : option (list R -> list R -> list R -> list R -> list R);
  wm_felicity : option (list R -> list R -> list R -> R);
  wm_lb : option (list R -> list R -> list R);
  wm_ub : option (list R -> list R -> list R);
  wm_value : option val_fun }.

(** 23-31: keyword arguments.  [maxit_howard] is never read, [verbose] only prints. *)
Record vi_args : Type := ViArgs {
  wa_verbose : bool;
  wa_details : bool;
  wa_tol : R;
  wa_maxit : nat;
  wa_howard : nat }.

(** 193-206, results.py:31-44: the fields after the two rules; log and trace are None. *)
Record vi_details : Type := ViDetails {
  vd_iterations : nat;
  vd_process : dexo;
  vd_x_converged : bool;
  vd_x_tol : R;
  vd_x_err : R;
  vd_v_converged : bool;
  vd_v_tol : R;
  vd_v_err : R }.

(** 190-206: the rules, and with details the report. *)
Record vi_answer : Type := ViAnswer {
  va_dr : value_rule;
  va_drv : value_rule;
  va_details : option vi_details }.

Section Call.
  (** As in EvaluateCall.v, for each number of columns; [minimize] as in ValueIteration.v. *)
  Variable spline : nat -> interp -> grid -> (nat -> nat -> R) -> list R -> list R.
  Variable spline_ms : nat -> interp -> grid -> grid -> tensor -> list R -> list R -> list R.
  Variable minimize : (list R -> R) -> list R -> list (R * R) -> list R.

  (** 217: [drv(I_ms, S)[0]] (decision_rule.py:62-67, 126-129), for a rule which has values, one column, and no Cartesian
      exogenous grid. *)
  Definition value_at (r : value_rule) (j : nat) (S : list R) : R :=
    match value_is (spline 1) (spline_ms 1) r j [S] with
    | Ok (P2 (v :: _)) => hd 0 v
    | _ => 0
    end.

  Section Loop.
    Variable md : vi_model.
    Variable g : list R -> list R -> list R -> list R -> list R.
    Variable felicity : list R -> list R -> list R -> R.
    Variables lb ub : list R -> list R -> list R.
    Variable beta : R.
    Let d := wm_process md.
    Let s := endo_nodes (wm_endo_grid md).
    Let n_x := length (wm_x0 md).
    Let n_v := match wm_v0 md with Some v0 => length v0 | None => 0%nat end.

    (** 73, 89, 185-187: [DecisionRule(exo_grid, endo_grid)] after [set_values]. *)
    Definition new_rule (x : tensor) : value_rule :=
      ValueRule (wm_exo_grid md) (wm_endo_grid md) None Cubic (Some x).

    (** What [evaluate_policy] reads of the model (EvaluateCall.v). *)
    Definition evaluated : value_model :=
      ValueModel (wm_exo_grid md) (wm_endo_grid md) d (wm_x0 md) (wm_v0 md) g (wm_value md).

    (** 119: the rule of the controls as a policy.  On a Cartesian exogenous grid the evaluation fails before [eval_ijs]
        answers, for want of [dprocess]. *)
    Definition rule_policy (x : tensor) : policy :=
      PolicyObject (Some (fun i s => value_is (spline n_x) (spline_ms n_x) (new_rule x) i s))
                   (Some (rule_ijs (spline n_x) (spline_ms n_x) Cubic (wm_exo_grid md) (wm_endo_grid md) d x)).

    (** 120-123 with the default tolerance and maximum of iterations (233-234). *)
    Definition evaluate_args (dr0 : option value_rule) : ep_args :=
      EpArgs ep_tol ep_maxit [] false dr0 None None true "cubic".

    (** 114-171.  [mdrv] is the rule of the previous evaluation.  127: the rule has as many columns as there are
        symbols "values", the array has one. *)
    Fixpoint vic_loop (tol : R) (fuel it : nat) (err_v err_x : R) (controls_0 : tensor) (mdrv : value_rule)
        (last : option (tensor * (nat -> nat -> R))) : res (option (tensor * (nat -> nat -> R)) * nat * R * R) :=
      match fuel with
      | O => Ok (last, it, err_v, err_x)
      | S fuel' =>
          if orb (if Rlt_dec tol err_v then true else false) (if Rlt_dec vi_tol_x err_x then true else false) then
            match first_pass Cubic (wm_exo_grid md) (wm_endo_grid md) d with
            | Some e => Err e
            | None =>
                bind (evaluate_call (spline n_v) (spline_ms n_v) evaluated (rule_policy controls_0)
                        (evaluate_args (if Nat.ltb 2 (S it) then Some mdrv else None))) (fun ev =>
                let mdrv := an_rule ev in
                match wm_v0 md with
                | Some [_] =>
                    bind (fill_controls (ex_n d) (length s) 1 (fun i => value_is (spline 1) (spline_ms 1) mdrv i s)) (fun values_0 =>
                    let controls : tensor := fun i n k =>
                      let m := ex_node d i in
                      nth k (minimize (fun xx => - choice_total g felicity d beta (value_at mdrv) i (nth n s []) xx)
                                      (at_node n_x controls_0 i n)
                                      (combine (lb m (nth n s [])) (ub m (nth n s [])))) 0 in
                    let values := fun i n =>
                      choice_total g felicity d beta (value_at mdrv) i (nth n s []) (at_node n_x controls i n) in
                    if Nat.eqb (ex_n d * length s * n_x) 0 then Err ExcValue else
                    let err_x := tnorm (ex_n d) (length s) n_x (fun i n k => controls i n k - controls_0 i n k) in
                    let err_v := tnorm (ex_n d) (length s) 1 (fun i n k => values i n - values_0 i n k) in
                    vic_loop tol fuel' (S it) err_v err_x controls mdrv (Some (controls, values)))
                | _ => Err ExcValue
                end)
            end
          else Ok (last, it, err_v, err_x)
      end.
  End Loop.

  (** The whole call: 51-57, then the loop, then 185-206; 187 raises NameError when the loop never ran. *)
  Definition vi_call (md : vi_model) (a : vi_args) : res vi_answer :=
    match wm_transition md, wm_felicity md, wm_lb md, wm_ub md, wm_beta md with
    | Some g, Some felicity, Some lb, Some ub, Some beta =>
        bind (vic_loop md g felicity lb ub beta (wa_tol a) (wa_maxit a) 0 100 100 (fun _ _ k => nth k (wm_x0 md) 0)
                (ValueRule (wm_exo_grid md) (wm_endo_grid md) None Cubic None) None) (fun r =>
        let '(last, it, err_v, err_x) := r in
        match last with
        | None => Err ExcName
        | Some (c, v) =>
            Ok (ViAnswer (new_rule md c) (new_rule md (fun i n _ => v i n))
                  (if wa_details a
                   then Some (ViDetails it (wm_process md)
                                (if Rlt_dec err_x vi_tol_x then true else false) vi_tol_x err_x
                                (if Rlt_dec err_v vi_tol_v then true else false) vi_tol_v err_v)
                   else None))
        end)
    | _, _, _, _, _ => Err ExcKey
    end.
End Call.
