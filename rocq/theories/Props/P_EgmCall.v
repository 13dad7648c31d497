(** C147: the options of [egm]. *)
From Coq Require Import String Reals List Arith Bool.
From Verif Require Import Base.Prelude Base.Arrays Base.Ext Spec.Egm Model.Grids Model.Distributions Model.Processes
  Model.DecisionRule Model.TimeIteration Model.TimeIterationCall Model.Egm Model.EgmCall Spec.EgmCall
  Proofs.TimeIterationProofs Proofs.EgmCallProofs.
Import ListNotations.
Open Scope R_scope.

(** What is returned: a rule on the grids given (otherwise the model's), for the process given (otherwise the model's),
    the number of the last iteration, and a flag that compares the error with the tolerance. *)
Theorem C147_report : forall el nan md a an, egm_call el nan md a = Ok an ->
    exists exo endo d, egm_uses md a exo endo d /\ sr_exo_grid (ge_rule an) = exo /\ sr_endo_grid (ge_rule an) = endo /\
      sr_process (ge_rule an) = d /\ ge_dprocess an = d /\ sr_interp (ge_rule an) = Cubic /\ ge_tol an = ga_tol a /\
      (ge_iterations an < ga_maxit a)%nat /\ (ge_converged an = true <-> ge_err an < ga_tol a) /\
      (ge_converged an = false -> ge_iterations an = (ga_maxit a - 1)%nat).
Proof. exact call_report. Qed.
Print Assumptions C147_report.

(** A reported convergence (tolerance at most 1): the values of the rule at its nodes are those of a rule [X] that
    interpolates controls at endogenous states, projected on the bounds; the controls and states implied by the
    expectations under [X], for the process used and the post-states given, are within the tolerance. *)
Theorem C147_converged : forall el nan md a an f ag, egm_call el nan md a = Ok an -> em_funs_of md = Ok f ->
    ga_a_grid a = Some (1%nat, ag) -> bounds_order f (ge_dprocess an) -> ga_tol a <= 1 -> ge_converged an = true ->
    let d := ge_dprocess an in
    let s := endo_nodes (sr_endo_grid (ge_rule an)) in
    exists n_h (X : nat -> R -> R) sa xa sa' xa' e1 e2, em_n_h md = Some n_h /\
      (forall i ss, let c := if em_iid md then 0%nat else i in
         projection (ef_lb f (ex_node d c) ss) (ef_ub f (ex_node d c) ss) (el (sa c) (xa c) ss) (X i ss)) /\
      (forall i n, (n < length s)%nat -> sr_values (ge_rule an) i n 0%nat = X i (hd 0 (nth n s []))) /\
      (forall i p, egm_response n_h (dp_n (ex_dp d) i) (dp_weight (ex_dp d) i) (dp_node (ex_dp d) i) X
                     (ef_h f) (ef_gt f) (ef_tau f) (ef_atau f) (ex_node d i) (nth p ag 0) (xa' i p) (sa' i p)) /\
      distance2_is (ex_n d) (length ag) xa' xa e1 /\ distance2_is (ex_n d) (length ag) sa' sa e2 /\ e1 + e2 < ga_tol a.
Proof. exact call_converged. Qed.
Print Assumptions C147_converged.

(** What a call needs. *)
Theorem C147_needs : forall el nan md a an, egm_call el nan md a = Ok an ->
    em_states md = 1%nat /\ em_controls md = 1%nat /\ (exists f, em_funs_of md = Ok f) /\ em_n_h md <> None /\
    (exists ag, ga_a_grid a = Some (1%nat, ag)) /\ (0 < ga_maxit a)%nat /\ (ga_grid a = None <-> ga_dp a = None).
Proof. exact call_needs. Qed.
Print Assumptions C147_needs.

(** A model with two shocks, on the grids of the model. *)
Example C147_case : forall el nan, exists an,
    egm_call el nan (egm_shocks true) (egm_plain (1 / 1000000)) = Ok an /\ ge_converged an = true.
Proof. intros el nan. exact (proj2 (shocks_run el nan)). Qed.

(** Refuted: "a grid or a process may be given".  One without the other is an error. *)
Theorem C147_half_given_refuted : forall el nan md a, em_states md = 1%nat -> em_controls md = 1%nat ->
    (forall d, ga_grid a = None -> ga_dp a = Some d -> egm_call el nan md a = Err ExcType) /\
    (forall g f, ga_grid a = Some g -> ga_dp a = None -> em_funs_of md = Ok f -> egm_call el nan md a = Err ExcAttribute).
Proof. exact call_half_given. Qed.
Print Assumptions C147_half_given_refuted.

(** Refuted: "details is an option".  It changes nothing, nor does verbose. *)
Theorem C147_unread_refuted : forall el nan md a v d,
    egm_call el nan md (EgmArgs (ga_dr0 a) v d (ga_a_grid a) (ga_tol a) (ga_maxit a) (ga_grid a) (ga_dp a)) = egm_call el nan md a.
Proof. exact call_unread. Qed.
Print Assumptions C147_unread_refuted.

(** Refuted: "i.i.d. shocks may be written in any of the forms of a model file".  Written as a mapping they make a product,
    not an instance of IIDProcess; with more integration nodes than nodes the second iteration raises an IndexError. *)
Theorem C147_product_refuted :
  (forall el nan md a exo endo d f ag n_h, egm_uses md a exo endo d -> em_states md = 1%nat -> em_controls md = 1%nat ->
     em_funs_of md = Ok f -> ga_a_grid a = Some (1%nat, ag) -> em_n_h md = Some n_h -> em_iid md = false -> ~ pages_known d ->
     (2 <= ga_maxit a)%nat -> ga_tol a <= 1 -> egm_call el nan md a = Err ExcIndex) /\
  (forall el nan, egm_call el nan (egm_shocks false) (egm_plain (1 / 1000000)) = Err ExcIndex).
Proof. split; [exact call_product|]. intros el nan. exact (proj1 (shocks_run el nan)). Qed.
Print Assumptions C147_product_refuted.

(** Refuted: "the process given is followed".  When the process of the model is i.i.d. the rule for a chain is the same in
    all states, although the chain of a model with the same equations gives another control in the second state. *)
Theorem C147_chain_refuted :
  (forall el nan md a an, egm_call el nan md a = Ok an -> em_iid md = true -> ga_tol a <= 1 -> (2 <= ga_maxit a)%nat ->
     forall i n k, sr_values (ge_rule an) i n k = sr_values (ge_rule an) 0%nat n k) /\
  (forall nan iid, exists an,
     egm_call (fun _ x _ => x 0%nat) nan (egm_md iid) egm_two = Ok an /\ ge_converged an = true /\ ge_iterations an = 2%nat /\
     ge_dprocess an = two_states /\ sr_values (ge_rule an) 1%nat 0%nat 0%nat = (if iid then 0 else 1) /\
     sr_values (ge_rule an) 0%nat 0%nat 0%nat = 0).
Proof. split; [exact call_chain|exact two_chain_run]. Qed.
Print Assumptions C147_chain_refuted.

(** Refuted: "convergence is reported after the tolerance is met".  With a tolerance above 1 the first rule comes back,
    flagged as converged. *)
Theorem C147_large_tol_refuted : forall el nan md a an, egm_call el nan md a = Ok an -> 1 < ga_tol a ->
    exists dr0, egm_first md a dr0 /\ ge_converged an = true /\ ge_iterations an = 0%nat /\
      forall i n, (n < length (endo_nodes (sr_endo_grid (ge_rule an))))%nat ->
        sr_values (ge_rule an) i n 0%nat = dr0 i (hd 0 (nth n (endo_nodes (sr_endo_grid (ge_rule an))) [])).
Proof. exact call_large_tol. Qed.
Print Assumptions C147_large_tol_refuted.
