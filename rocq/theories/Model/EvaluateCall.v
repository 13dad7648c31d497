(** The call of [evaluate_policy] with its options: dolo/algos/value_iteration.py, lines 222-364, on top of
    ValueIteration.v.  Printing and timings are left out. *)
From Coq Require Import String Reals List Arith Bool.
From Verif.Base Require Import Prelude Arrays Norms Ext.
From Verif.Model Require Import Grids Distributions Processes DecisionRule TimeIteration TimeIterationCall
  ImprovedTimeIteration ValueIteration.
Import ListNotations.
Open Scope R_scope.

(** decision_rule.py:86-119: a rule before or after [set_values]; [vr_process] is the attribute [dprocess]. *)
Record value_rule : Type := ValueRule {
  vr_exo : grid;
  vr_endo : grid;
  vr_process : option dexo;
  vr_interp : interp;
  vr_values : option tensor }.

(** What is read of a model (263-276, 301-302): the results of [model.discretize()], calibrated controls and values
    (None without symbols "values"), functions "transition" and "value" (None if there is none). *)
Record value_model : Type := ValueModel {
  vm_exo_grid : grid;
  vm_endo_grid : grid;
  vm_process : dexo;
  vm_x0 : list R;
  vm_v0 : option (list R);
  vm_g : list R -> list R -> list R -> list R -> list R;
  vm_val : option val_fun }.

(** 232: what is given as [mdr]: an array of controls at the nodes, or an object with or without the methods
    [eval_is] and [eval_ijs].  A DecisionRule has both; ConstantDecisionRule (decision_rule.py:469-484) has only
    the first; results of algorithms, rules of perturbation and CustomDR have none. *)
Inductive policy : Type :=
| PolicyArray (controls : tensor)
| PolicyObject (eval_is : option (nat -> list (list R) -> res points))
               (eval_ijs : option (nat -> nat -> list R -> list R)).

(** 230-242.  [grid] (replaced at 264), [hook] and [integration_orders] are never read; [verbose] only prints. *)
Record ep_args : Type := EpArgs {
  ea_tol : R;
  ea_maxit : nat;
  ea_grid : list (string * R);
  ea_verbose : bool;
  ea_dr0 : option value_rule;
  ea_hook : option nat;
  ea_orders : option (list nat);
  ea_details : bool;
  ea_interp : string }.

(** What is returned: a rule, which is the object given as [dr0] if there is one, and with details the number of
    iterations, the tolerance and the last error (222-227). *)
Record ep_answer : Type := EpAnswer {
  an_rule : value_rule;
  an_is_dr0 : bool;
  an_details : option (nat * R * R) }.

Section Call.
  (** As in TimeIterationCall.v. *)
  Variable spline : interp -> grid -> (nat -> nat -> R) -> list R -> list R.
  Variable spline_ms : interp -> grid -> grid -> tensor -> list R -> list R -> list R.

  Definition is_cartesian (g : grid) : bool :=
    match g with GUniform _ | GNonUniform _ => true | _ => false end.

  (** decision_rule.py:126-129 [eval_is] at the points [s]; without values there is no attribute [coefficients].
      On a Cartesian grid the index is the number of a node. *)
  Definition value_is (r : value_rule) (i : nat) (s : list (list R)) : res points :=
    match vr_values r with
    | None => Err ExcAttribute
    | Some v =>
        match vr_exo r with
        | GUnstructured _ => Ok (P2 (map (spline (vr_interp r) (vr_endo r) (v i)) s))
        | GEmpty => Ok (P2 (map (spline (vr_interp r) (vr_endo r) (v 0%nat)) s))
        | g => bind (grid_node g i) (fun m => Ok (P2 (map (spline_ms (vr_interp r) g (vr_endo r) v m) s)))
        end
    end.

  (** 278-281: the rule for the values, [dr0] itself if it is given. *)
  Definition value_start (md : value_model) (a : ep_args) : res value_rule :=
    match ea_dr0 a with
    | Some r => Ok r
    | None => bind (interp_method (ea_interp a)) (fun k =>
              Ok (ValueRule (vm_exo_grid md) (vm_endo_grid md) None k None))
    end.

  (** 286-291 *)
  Definition policy_controls (d : dexo) (s : list (list R)) (n_x : nat) (p : policy) : res tensor :=
    match p with
    | PolicyArray c => Ok c
    | PolicyObject (Some e) _ => fill_controls (ex_n d) (length s) n_x (fun i => e i s)
    | PolicyObject None _ => Err ExcAttribute
    end.

  (** 293-299 *)
  Definition initial_values (d : dexo) (s : list (list R)) (v0 : list R) (a : ep_args) : res tensor :=
    match ea_dr0 a with
    | None => Ok (fun _ _ k => nth k v0 0)
    | Some r => fill_controls (ex_n d) (length s) (length v0) (fun i => value_is r i s)
    end.

  (** 391: [dr.eval_ijs], an attribute that arrays do not have. *)
  Definition policy_ijs (p : policy) : option (nat -> nat -> list R -> list R) :=
    match p with PolicyArray _ => None | PolicyObject _ e => e end.

  (** The whole call.  In the first pass: [set_values] (331; [first_pass] as in TimeIterationCall.v), then
      [dr.eval_ijs] (391) and [drv.eval_ijs] (392), which on a Cartesian exogenous grid reads the attribute
      [dprocess].  There is at least one exogenous node, with at least one integration node. *)
  Definition evaluate_call (md : value_model) (p : policy) (a : ep_args) : res ep_answer :=
    let d := vm_process md in
    match vm_v0 md with
    | None => Err ExcKey
    | Some v0 =>
        bind (value_start md a) (fun r =>
        let s := endo_nodes (vr_endo r) in
        let n_x := length (vm_x0 md) in
        let n_v := length v0 in
        let out r q e := EpAnswer r (match ea_dr0 a with Some _ => true | None => false end)
                           (if ea_details a then Some (q, ea_tol a, e) else None) in
        bind (policy_controls d s n_x p) (fun x =>
        bind (initial_values d s v0 a) (fun v =>
        match vm_val md with
        | None => Err ExcKey
        | Some val =>
            if orb (Nat.eqb (ea_maxit a) 0) (if Rlt_dec (ea_tol a) 10 then false else true) then Ok (out r 0%nat 10)
            else
            match first_pass (vr_interp r) (vr_exo r) (vr_endo r) d with
            | Some e => Err e
            | None =>
                match policy_ijs p with
                | None => Err ExcAttribute
                | Some dr =>
                    match is_cartesian (vr_exo r), vr_process r with
                    | true, None => Err ExcAttribute
                    | _, dp =>
                        let d' := match dp with Some d' => d' | None => d end in
                        bind (evaluate_policy (vm_g md) val d s n_x n_v
                                (rule_ijs spline spline_ms (vr_interp r) (vr_exo r) (vr_endo r) d') x dr
                                (ea_tol a) (ea_maxit a) v) (fun e =>
                        Ok (out (ValueRule (vr_exo r) (vr_endo r) (vr_process r) (vr_interp r) (ep_values e))
                                (ep_iterations e) (ep_err e)))
                    end
                end
            end
        end)))
    end.
End Call.
