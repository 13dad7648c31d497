(** C146: the options of [evaluate_policy]. *)
From Coq Require Import String Reals List Arith Bool.
From Verif Require Import Base.Prelude Base.Arrays Spec.Euler Spec.Bellman Model.Grids Model.Distributions Model.Processes
  Model.DecisionRule Model.TimeIteration Model.TimeIterationCall Model.ImprovedTimeIteration Model.ValueIteration
  Model.EvaluateCall Spec.EvaluateCall Proofs.TimeIterationProofs Proofs.ValueIterationProofs Proofs.EvaluateCallProofs.
Import ListNotations.
Open Scope R_scope.

(** What a call does: from the calibrated values, or from the values of [dr0] at its nodes, it computes successive values
    of following the policy; it stops when two of them are within [tol], or after [maxit] passes; the rule returned
    holds the values before the last; the details are the number of passes and the last distance. *)
Theorem C146_run : forall spline spline_ms md p a an, evaluate_call spline spline_ms md p a = Ok an -> passes a ->
    exists r v0 val e dr x vs q err d',
      rule_for md a r /\ vm_v0 md = Some v0 /\ vm_val md = Some val /\
      p = PolicyObject (Some e) (Some dr) /\
      (vr_process r = Some d' \/ vr_process r = None /\ is_cartesian (vr_exo r) = false) /\
      let s := endo_nodes (vr_endo r) in
      let d := vm_process md in
      let ip := rule_ijs spline spline_ms (vr_interp r) (vr_exo r) (vr_endo r) d' in
      filled (ex_n d) s (length (vm_x0 md)) (fun i => e i s) x /\
      match ea_dr0 a with
      | None => forall i n k, vs 0%nat i n k = nth k v0 0
      | Some _ => filled (ex_n d) s (length v0) (fun i => value_is spline spline_ms r i s) (vs 0%nat)
      end /\
      successive (vm_g md) val d s (length (vm_x0 md)) (length v0) ip x dr vs /\
      an_rule an = ValueRule (vr_exo r) (vr_endo r) (vr_process r) (vr_interp r) (Some (vs q)) /\
      (an_is_dr0 an = true <-> ea_dr0 a <> None) /\
      an_details an = (if ea_details a then Some (S q, ea_tol a, err) else None) /\
      (q < ea_maxit a)%nat /\ ((S q < ea_maxit a)%nat -> err <= ea_tol a) /\
      distance_is (ex_n d) (length s) (length v0) (vs (S q)) (vs q) err /\
      (forall c, (c < q)%nat -> exists e, distance_is (ex_n d) (length s) (length v0) (vs (S c)) (vs c) e /\ ea_tol a < e).
Proof. exact call_run. Qed.
Print Assumptions C146_run.

(** From the values that the rule given as [dr0] holds at its nodes, when it interpolates them, a call goes on as if it
    had not been interrupted: its first values are these. *)
Theorem C146_warm_start : forall spline spline_ms md p a an r v v0,
    evaluate_call spline spline_ms md p a = Ok an -> passes a ->
    ea_dr0 a = Some r -> vm_v0 md = Some v0 -> interpolates spline spline_ms r (ex_n (vm_process md)) (length v0) v ->
    exists val dr x vs q d', vm_val md = Some val /\ policy_ijs p = Some dr /\
      (vr_process r = Some d' \/ vr_process r = None /\ is_cartesian (vr_exo r) = false) /\
      successive (vm_g md) val (vm_process md) (endo_nodes (vr_endo r)) (length (vm_x0 md)) (length v0)
        (rule_ijs spline spline_ms (vr_interp r) (vr_exo r) (vr_endo r) d') x dr vs /\
      (forall i n k, (i < ex_n (vm_process md))%nat -> (n < length (endo_nodes (vr_endo r)))%nat -> (k < length v0)%nat ->
         vs 0%nat i n k = v i n k) /\
      an_rule an = ValueRule (vr_exo r) (vr_endo r) (vr_process r) (vr_interp r) (Some (vs q)) /\ (q < ea_maxit a)%nat.
Proof. exact call_warm. Qed.
Print Assumptions C146_warm_start.

Example C146_warm_case : interpolates flat_spline flat_ms flat_dr0 (ex_n (vm_process flat_model)) 1 (fun _ _ _ => 4) /\
  exists an, evaluate_call flat_spline flat_ms flat_model flat_policy (flat_args (Some flat_dr0)) = Ok an.
Proof. split; [exact flat_interpolates | exact (flat_ok (Some flat_dr0) (or_intror eq_refl))]. Qed.

(** How far the values kept are from the value [w] of the policy, when tomorrow is discounted by [beta]. *)
Theorem C146_accuracy : forall g val (d : dexo) (s : list (list R)) n_x n_v ip x dr beta K,
    discounts n_v beta val ->
    interpolation_lipschitz (ex_n d) (dp_n (ex_dp d) 0) (length s) n_v K ip ->
    (forall i, (i < ex_n d)%nat -> probability (dp_n (ex_dp d) 0) (dp_weight (ex_dp d) i)) ->
    0 <= beta * K < 1 ->
    forall vs w q err, successive g val d s n_x n_v ip x dr vs -> successive g val d s n_x n_v ip x dr (fun _ => w) ->
      distance_is (ex_n d) (length s) n_v (vs (S q)) (vs q) err ->
      forall i n k, (i < ex_n d)%nat -> (n < length s)%nat -> (k < n_v)%nat ->
        Rabs (vs q i n k - w i n k) <= err / (1 - beta * K).
Proof. exact call_accuracy. Qed.
Print Assumptions C146_accuracy.

(** With maxit=0, or a tolerance of 10 or more, nothing is computed: the rule comes back as it was. *)
Theorem C146_no_pass : forall spline spline_ms md p a an, evaluate_call spline spline_ms md p a = Ok an -> ~ passes a ->
    exists r, rule_for md a r /\ an_rule an = r /\ (an_is_dr0 an = true <-> ea_dr0 a <> None) /\
      an_details an = (if ea_details a then Some (0%nat, ea_tol a, 10) else None).
Proof. exact call_no_pass. Qed.
Print Assumptions C146_no_pass.

(** The model must have symbols "values" and a function "value". *)
Theorem C146_needs : forall spline spline_ms md p a an, evaluate_call spline spline_ms md p a = Ok an ->
    vm_v0 md <> None /\ vm_val md <> None.
Proof. exact call_needs. Qed.
Print Assumptions C146_needs.

(** Without one of the two, the call that would succeed raises KeyError. *)
Theorem C146_missing : forall spline spline_ms md p a an, evaluate_call spline spline_ms md p a = Ok an ->
    evaluate_call spline spline_ms
      (ValueModel (vm_exo_grid md) (vm_endo_grid md) (vm_process md) (vm_x0 md) None (vm_g md) (vm_val md)) p a = Err ExcKey /\
    evaluate_call spline spline_ms
      (ValueModel (vm_exo_grid md) (vm_endo_grid md) (vm_process md) (vm_x0 md) (vm_v0 md) (vm_g md) None) p a = Err ExcKey.
Proof. exact call_missing. Qed.
Print Assumptions C146_missing.

(** Two passes on a model with one node: the control 1 is worth 2; from 0 the values are 1 and 3/2, from 4 they are
    3 and 5/2.  The first of the two is kept. *)
Example C146_case : forall dr0 start, dr0 = None /\ start = 0 \/ dr0 = Some flat_dr0 /\ start = 4 ->
  exists an v, evaluate_call flat_spline flat_ms flat_model flat_policy (flat_args dr0) = Ok an /\
    passes (flat_args dr0) /\
    vr_values (an_rule an) = Some v /\ v 0%nat 0%nat 0%nat = 1 + start / 2 /\
    (an_is_dr0 an = true <-> dr0 <> None) /\ exists e, an_details an = Some (2%nat, 1 / 1000, e) /\ e = Rabs ((1 - start / 2) / 2).
Proof. exact flat_run. Qed.

(** Refuted: "the rule given as a first guess is not touched".  It is the object returned, with other values. *)
Theorem C146_dr0_refuted : exists an v w, evaluate_call flat_spline flat_ms flat_model flat_policy (flat_args (Some flat_dr0)) = Ok an /\
    an_is_dr0 an = true /\ vr_values flat_dr0 = Some v /\ vr_values (an_rule an) = Some w /\
    v 0%nat 0%nat 0%nat = 4 /\ w 0%nat 0%nat 0%nat = 1 + 4 / 2.
Proof.
  destruct (flat_run (Some flat_dr0) 4) as (an & w & H & _ & Hw & Ew & Ho & _); [right; split; reflexivity|].
  exists an, (fun _ _ _ => 4), w. split; [exact H|]. split; [apply Ho; discriminate|]. split; [reflexivity|]. split; [exact Hw|]. split; [reflexivity|exact Ew].
Qed.
Print Assumptions C146_dr0_refuted.

(** Refuted: "the policy may be an array of controls, or any solution".  Only objects with the methods eval_is and
    eval_ijs are evaluated, which arrays, constant rules, results of algorithms, perturbation rules and CustomDR do not
    all have; the others give an AttributeError. *)
Theorem C146_policy_refuted :
  (forall spline spline_ms md p a an, passes a -> evaluate_call spline spline_ms md p a = Ok an ->
     exists e dr, p = PolicyObject (Some e) (Some dr)) /\
  (forall dr0, dr0 = None \/ dr0 = Some flat_dr0 ->
     evaluate_call flat_spline flat_ms flat_model (PolicyArray (fun _ _ _ => 1)) (flat_args dr0) = Err ExcAttribute /\
     evaluate_call flat_spline flat_ms flat_model (PolicyObject (Some (fun _ s => Ok (P2 (map (fun _ => [1]) s)))) None) (flat_args dr0)
       = Err ExcAttribute /\
     evaluate_call flat_spline flat_ms flat_model (PolicyObject None None) (flat_args dr0) = Err ExcAttribute).
Proof. split; [exact call_without_method|exact flat_policy_errors]. Qed.
Print Assumptions C146_policy_refuted.

(** Refuted: "any model can be evaluated".  With a Cartesian grid of exogenous nodes a rule made by the call has no
    process, and no pass succeeds. *)
Theorem C146_cartesian_refuted : forall spline spline_ms md p a an, passes a -> ea_dr0 a = None ->
    is_cartesian (vm_exo_grid md) = true -> evaluate_call spline spline_ms md p a <> Ok an.
Proof. exact call_cartesian. Qed.
Print Assumptions C146_cartesian_refuted.

(** There a first guess must have a process: without it, the call that would succeed raises AttributeError. *)
Theorem C146_process : forall spline spline_ms md p a an r, evaluate_call spline spline_ms md p a = Ok an -> passes a ->
    ea_dr0 a = Some r -> is_cartesian (vr_exo r) = true ->
    evaluate_call spline spline_ms md p (EpArgs (ea_tol a) (ea_maxit a) (ea_grid a) (ea_verbose a)
      (Some (ValueRule (vr_exo r) (vr_endo r) None (vr_interp r) (vr_values r))) (ea_hook a) (ea_orders a) (ea_details a) (ea_interp a))
      = Err ExcAttribute.
Proof. exact call_without_process. Qed.
Print Assumptions C146_process.

Example C146_process_case : is_cartesian (vr_exo grid_dr0) = true /\ passes (flat_args (Some grid_dr0)) /\
  exists an, evaluate_call flat_spline flat_ms flat_model flat_policy (flat_args (Some grid_dr0)) = Ok an.
Proof. split; [reflexivity|]. split; [|exact grid_ok]. destruct (flat_run (Some flat_dr0) 4) as (an & v & _ & P & _); [right; split; reflexivity|]. exact P. Qed.

(** Refuted: "grid, hook and integration_orders are options".  They change nothing; nor does the interpolation when
    [dr0] is given. *)
Theorem C146_unread_refuted :
  (forall spline spline_ms md p a grid verbose hook orders,
     evaluate_call spline spline_ms md p
       (EpArgs (ea_tol a) (ea_maxit a) grid verbose (ea_dr0 a) hook orders (ea_details a) (ea_interp a)) =
     evaluate_call spline spline_ms md p a) /\
  (forall spline spline_ms md p a name, ea_dr0 a <> None ->
     evaluate_call spline spline_ms md p
       (EpArgs (ea_tol a) (ea_maxit a) (ea_grid a) (ea_verbose a) (ea_dr0 a) (ea_hook a) (ea_orders a) (ea_details a) name) =
     evaluate_call spline spline_ms md p a).
Proof. split; [exact call_unread|exact call_interp_unread]. Qed.
Print Assumptions C146_unread_refuted.
