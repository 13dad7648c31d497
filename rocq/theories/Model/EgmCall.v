(** The call of [egm] with its options: dolo/algos/egm.py, on top of Egm.v.  Printing is left out. *)
From Coq Require Import String Reals List Arith Bool.
From Verif.Base Require Import Prelude Arrays Norms Ext.
From Verif.Model Require Import Grids Distributions Processes DecisionRule TimeIteration TimeIterationCall Egm.
Import ListNotations.
Open Scope R_scope.

(** 45-50: the six functions, for one state and one control, applied to the calibrated parameters. *)
Record egm_funs : Type := EgmFuns {
  ef_h : list R -> R -> R -> nat -> R;
  ef_gt : list R -> R -> list R -> R;
  ef_tau : list R -> R -> list R -> R;
  ef_atau : list R -> R -> R -> R;
  ef_lb : list R -> R -> ext;
  ef_ub : list R -> R -> ext }.

(** What is read of a model: numbers of states and controls (24-27); whether [model.exogenous] is an instance of
    IIDProcess (31) - a ProductProcess never is, whatever its components, and every process written as a mapping in the
    file is one (model.py:407-424); the results of [model.discretize()] (40); the functions, or the error raised when
    they are looked up (44-50, see CompiledFunctions.v); the calibrated control (53); the number of symbols
    "expectations" (71), None if there is no such group. *)
Record egm_model : Type := EgmModel {
  em_states : nat;
  em_controls : nat;
  em_iid : bool;
  em_exo_grid : grid;
  em_endo_grid : grid;
  em_process : dexo;
  em_funs_of : res egm_funs;
  em_x0 : R;
  em_n_h : option nat }.

(** 9-19.  [verbose] only prints; [details] is never read.  [a_grid]: its number of dimensions and its entries;
    [grid]: the two grids; [dr0] is called at one point. *)
Record egm_args : Type := EgmArgs {
  ga_dr0 : option (nat -> R -> R);
  ga_verbose : bool;
  ga_details : bool;
  ga_a_grid : option (nat * list R);
  ga_tol : R;
  ga_maxit : nat;
  ga_grid : option (grid * grid);
  ga_dp : option dexo }.

(** 138, results.py:22-28 *)
Record egm_answer : Type := EgmAnswer {
  ge_rule : solved_rule;
  ge_iterations : nat;
  ge_dprocess : dexo;
  ge_converged : bool;
  ge_tol : R;
  ge_err : R }.

Section Call.
  (** As in Egm.v. *)
  Variable eval_linear : (nat -> R) -> (nat -> R) -> R -> R.
  Variable nan : R.

  (** 93-97: [xa0[i, :, 0]] for an integration node of another number than those of the nodes. *)
  Definition off_pages (d : dexo) : bool :=
    existsb (fun i => Nat.ltb (ex_n d) (dp_n (ex_dp d) i)) (seq 0 (ex_n d)).

  (** The whole call.  132-136: [set_values] as in TimeIterationCall.v. *)
  Definition egm_call (md : egm_model) (a : egm_args) : res egm_answer :=
    if negb (Nat.eqb (em_states md) 1) then Err ExcAssert else
    if negb (Nat.eqb (em_controls md) 1) then Err ExcAssert else
    bind (match ga_grid a, ga_dp a with
          | None, None => Ok (em_exo_grid md, em_endo_grid md, Some (em_process md))
          | None, Some _ => Err ExcType
          | Some (x, e), d => Ok (x, e, d)
          end) (fun gd =>
    let '(exo, endo, dp) := gd in
    bind (em_funs_of md) (fun f =>
    let dr0 := match ga_dr0 a with Some r => r | None => fun _ _ => em_x0 md end in
    match dp with
    | None => Err ExcAttribute
    | Some d =>
    match ga_a_grid a with
    | None => Err (ExcGeneric "You must supply a grid for the post-states.")
    | Some (ndim, ag) =>
    if negb (Nat.eqb ndim 1) then Err ExcAssert else
    match em_n_h md with
    | None => Err ExcKey
    | Some n_h =>
    if andb (andb (negb (em_iid md)) (off_pages d))
         (andb (Nat.ltb 1 (ga_maxit a)) (if Rlt_dec 1 (ga_tol a) then false else true)) then Err ExcIndex else
    bind (egm d (em_iid md) (map (hd 0) (endo_nodes endo)) (fun p => nth p ag 0) (length ag) n_h
            (ef_h f) (ef_gt f) (ef_tau f) (ef_atau f) (ef_lb f) (ef_ub f) dr0 eval_linear nan true (ga_tol a) (ga_maxit a))
      (fun r =>
    match first_pass Cubic exo endo d with
    | Some e => Err e
    | None => Ok (EgmAnswer (SolvedRule exo endo d Cubic (fun i n _ => egm_values r i n))
                    (egm_it r) d (egm_converged r) (ga_tol a) (egm_eta r))
    end)
    end end end)).
End Call.
