(** The call of [time_iteration] with its options: dolo/algos/time_iteration.py, lines 40-253, on top of
    TimeIteration.v.  Printing, [hook] and the timings are left out. *)
From Coq Require Import String Reals List Arith Bool.
From Verif.Base Require Import Prelude Arrays Norms Ext.
From Verif.Model Require Import Grids Distributions Processes DecisionRule Newton NumDiff TimeIteration.
Import ListNotations.
Open Scope R_scope.

(** What is read of a model: [model.discretize()] (line 101) gives two grids and a process;
    [model.calibration["controls"]]; the functions "transition", "arbitrage" and, when the model has them,
    "arbitrage_lb" and "arbitrage_ub" (one point at a time). *)
Record ti_model : Type := TiModel {
  tm_exo_grid : grid;
  tm_endo_grid : grid;
  tm_process : dexo;
  tm_x0 : list R;
  tm_g : list R -> list R -> list R -> list R -> list R;
  tm_f : list R -> list R -> list R -> list R -> list R -> list R -> nat -> R;
  tm_bounds : option ((list R -> list R -> nat -> ext) * (list R -> list R -> nat -> ext)) }.

(** 40-54: the options. *)
Record ti_args : Type := TiArgs {
  ta_dr0 : option (first_arg -> points -> res points);
  ta_details : bool;
  ta_ignore : bool;
  ta_trace : bool;
  ta_process : option dexo;
  ta_maxit : nat;
  ta_inner : nat;
  ta_tol : R;
  ta_interp : string;
  ta_compl : option bool }.

(** decision_rule.py:43-48 (the dictionary) and 95-98 (the check). *)
Definition interp_method (name : string) : res interp :=
  if String.eqb name "cubic" then Ok Cubic
  else if String.eqb name "linear" then Ok Linear
  else if String.eqb name "multilinear" then Ok Linear
  else if String.eqb name "chebychev" then Ok Chebychev
  else Err (ExcGeneric "Unknown interpolation type").

(** A decision rule: its grids, process, interpolation and the values it was given last. *)
Record solved_rule : Type := SolvedRule {
  sr_exo_grid : grid;
  sr_endo_grid : grid;
  sr_process : dexo;
  sr_interp : interp;
  sr_values : tensor }.

(** results.py: TimeIterationResult without the rule. *)
Record ti_details : Type := TiDetails {
  dt_iterations : nat;
  dt_compl : bool;
  dt_process : dexo;
  dt_converged : bool;
  dt_tol : R;
  dt_err : R;
  dt_trace : option (list solved_rule) }.

Section Call.
  (** Interpolation on the endogenous grid of the values at its nodes, and on the product of two Cartesian
      grids (third party): one point at a time, never raising. *)
  Variable spline : interp -> grid -> (nat -> nat -> R) -> list R -> list R.
  Variable spline_ms : interp -> grid -> grid -> tensor -> list R -> list R -> list R.
  Variable lsolve : (nat -> nat -> R) -> (nat -> R) -> res (nat -> R).
  Variable nan : R.

  (** decision_rule.py:136-148 (eval_ijs) after set_values; see DecisionRule.v for arrays and
      coefficients.  On an UnstructuredGrid the points of that grid are not read; on an EmptyGrid the linear rule
      reshapes the whole array (376-386), the cubic one its first page (408-420).  RuleTomorrowProofs.v proves that
      this is the rule of DecisionRule.v. *)
  Definition rule_ijs (k : interp) (exo endo : grid) (d : dexo) (x : tensor) (i j : nat) (S : list R) : list R :=
    match exo with
    | GUnstructured _ => spline k endo (x j) S
    | GEmpty => match k with Linear => spline_ms k exo endo x [] S | _ => spline k endo (x 0%nat) S end
    | _ => spline_ms k exo endo x (dp_node (ex_dp d) i j) S
    end.

  (** [endo_grid.nodes]. *)
  Definition endo_nodes (g : grid) : list (list R) :=
    match g with
    | GUniform u => map (row (u_nodes u)) (seq 0 (nrow (u_nodes u)))
    | GNonUniform u => map (row (nu_nodes u)) (seq 0 (nrow (nu_nodes u)))
    | GUnstructured p => map (row p) (seq 0 (nrow p))
    | GPoint p => [p]
    | GEmpty => []
    end.

  Section Loop.
    Variable md : ti_model.
    Variable d : dexo.
    Variable k : interp.
    Let s := endo_nodes (tm_endo_grid md).
    Let n_x := length (tm_x0 md).
    Let ip := rule_ijs k (tm_exo_grid md) (tm_endo_grid md) d.

    (** [copy.deepcopy(mdr)] after set_values. *)
    Definition snapshot (x : tensor) : solved_rule := SolvedRule (tm_exo_grid md) (tm_endo_grid md) d k x.

    (** 192-230 with the trace (199-200), the last entry first. *)
    Fixpoint ti_loop_trace (tol : R) (inner_maxit : nat) (bounds : option ((nat -> ext) * (nat -> ext)))
        (fuel it : nat) (err : R) (c0 : nat -> R) (controls : option (nat -> R)) (tr : list solved_rule)
      : res (option (nat -> R) * nat * R * list solved_rule) :=
      match fuel with
      | O => Ok (controls, it, err, tr)
      | S fuel' =>
          if Rlt_dec tol err then
            let tr := snapshot (unflatten (length s) n_x c0) :: tr in
            if Nat.eqb (size d s n_x) 0 then Err ExcValue else
            bind (ti_inner (tm_g md) (tm_f md) d s n_x ip lsolve nan inner_maxit bounds c0) (fun a =>
            let c := fst (fst a) in
            ti_loop_trace tol inner_maxit bounds fuel' (S it)
              (supnorm (size d s n_x) (fun q => c q - c0 q)) c (Some c) tr)
          else Ok (controls, it, err, tr)
      end.

    (** 143-157: bounds at the nodes, only when the model has them and they are wanted. *)
    Definition node_bounds (compl : bool) : option (tensor_ext * tensor_ext) :=
      match tm_bounds md with
      | Some (lb, ub) =>
          if compl then Some ((fun i n => lb (ex_node d i) (nth n s [])), (fun i n => ub (ex_node d i) (nth n s [])))
          else None
      | None => None
      end.
  End Loop.

  (** 83-88. *)
  Definition wants_bounds (a : ti_args) : bool :=
    match ta_compl a with Some b => b | None => negb (ta_ignore a) end.

  (** What the first pass raises before any equation is solved.  "chebychev" is accepted by the constructor and
      has no coefficients.  Linear interpolation on an UnstructuredGrid hands values which are not reshaped to the
      library (DecisionRule.v, C74): with several states the answer has another shape than the controls, and is
      refused by the compiled arbitrage function (a simplification: what the library does with such an array is
      not modelled).  On a product of Cartesian grids, and with linear interpolation without exogenous
      grid, values for another number of exogenous nodes than the grid's are reshaped with another number of
      columns than n_x (or cannot be: C143_reshaped), and the compiled arbitrage function refuses them; with
      cubic interpolation without exogenous grid only the first page is read (decision_rule.py:376-386). *)
  Definition first_pass (k : interp) (exo endo : grid) (d : dexo) : option exn :=
    match k, exo with
    | Chebychev, _ => Some not_registered
    | Linear, GUnstructured _ =>
        match grid_dims endo with Some [_] => None | _ => Some ExcValue end
    | Cubic, GUnstructured _ | Cubic, GEmpty => None
    | Linear, GEmpty => if Nat.eqb (ex_n d) 1 then None else Some ExcValue
    | _, _ => if Nat.eqb (ex_n d) (n_nodes exo) then None else Some ExcValue
    end.

  (** The whole call. *)
  Definition time_iteration_call (md : ti_model) (a : ti_args) : res (solved_rule * option ti_details) :=
    let d := match ta_process a with Some d => d | None => tm_process md end in
    let s := endo_nodes (tm_endo_grid md) in
    let n_x := length (tm_x0 md) in
    let flat (b : tensor_ext) := fun q => b (q / n_x / length s)%nat ((q / n_x) mod length s)%nat (q mod n_x)%nat in
    bind (interp_method (ta_interp a)) (fun k =>
    bind (initial_controls d s (tm_x0 md) (ta_dr0 a)) (fun c0 =>
    match first_pass k (tm_exo_grid md) (tm_endo_grid md) d with
    | Some e =>
        if Nat.eqb (ta_maxit a) 0 then Err ExcName
        else if Rlt_dec (ta_tol a) 10 then Err e else Err ExcName
    | None =>
        let bounds := node_bounds md d (wants_bounds a) in
        let fb := match bounds with Some (l, u) => Some (flat l, flat u) | None => None end in
        bind (ti_loop_trace md d k (ta_tol a) (ta_inner a) fb (ta_maxit a) 0 10 (flatten (length s) n_x c0) None [])
          (fun b =>
        let '(controls, it, err, tr) := b in
        match controls with
        | None => Err ExcName
        | Some c =>
            let dr := snapshot md d k (unflatten (length s) n_x c) in
            Ok (dr, if ta_details a
                    then Some (TiDetails it (match bounds with Some _ => true | None => false end) d
                                 (if Rlt_dec err (ta_tol a) then true else false) (ta_tol a) err
                                 (if ta_trace a then Some (rev (dr :: tr)) else None))
                    else None)
        end)
    end)).
End Call.
