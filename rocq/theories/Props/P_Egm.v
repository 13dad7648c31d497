(** Property theorems C35, C89: the endogenous grid method. *)
From Coq Require Import String Reals List Arith Lia Lra.
From Verif.Base Require Import Prelude Arrays Sums Ext.
From Verif.Spec Require Import Egm.
From Verif.Model Require Import Discretization Distributions Processes TimeIteration Egm.
From Verif.Proofs Require Import TimeIterationProofs ValueIterationProofs EgmProofs.
Import ListNotations.
Open Scope R_scope.

(** C35.  From the second iteration on, the rule used is the interpolated one projected on the bounds of its exogenous
    node. *)
Theorem C35_rule_used :
  forall exo (is_iid : bool) lb ub el nan,
    (forall i (ss : R), lb (ex_node exo i) ss <> PInf /\ ub (ex_node exo i) ss <> MInf /\ ext_le (lb (ex_node exo i) ss) (ub (ex_node exo i) ss)) ->
    forall sa0 xa0 i ss,
      let c := if is_iid then 0%nat else i in
      projection (lb (ex_node exo c) ss) (ub (ex_node exo c) ss) (el (sa0 c) (xa0 c) ss)
                 (drfut exo is_iid lb ub el nan sa0 xa0 i ss).
Proof. exact drfut_projection. Qed.
Print Assumptions C35_rule_used.

(** C35.  With at least two iterations allowed, the values given to the returned rule are within the bounds at every node. *)
Theorem C35_returned_partial :
  forall exo (is_iid : bool) s a N_a n_h h gt tau atau lb ub dr0 el nan,
    (forall i (ss : R), lb (ex_node exo i) ss <> PInf /\ ub (ex_node exo i) ss <> MInf /\ ext_le (lb (ex_node exo i) ss) (ub (ex_node exo i) ss)) ->
    forall tol maxit r,
      egm exo is_iid s a N_a n_h h gt tau atau lb ub dr0 el nan true tol maxit = Ok r -> tol <= 1 -> (2 <= maxit)%nat ->
      forall i n, let m := ex_node exo (if is_iid then 0%nat else i) in
        ext_le_l (lb m (nth n s 0)) (egm_values r i n) /\ ext_le_r (egm_values r i n) (ub m (nth n s 0)).
Proof. exact egm_bounds. Qed.
Print Assumptions C35_returned_partial.

(** C35 fails with one iteration: the initial rule is returned unchecked. *)
Theorem C35_one_iteration_refuted :
  forall el nan,
    exists r, egm one_exo false [0] (fun p => INR p) 2 1 (fun _ _ X _ => X) (fun _ a _ => a) (fun _ _ z => hd 0 z) (fun _ a x => a + x)
                  (fun _ _ => Fin 0) (fun _ _ => Fin 1) (fun _ _ => 5) el nan true (1 / 1000000) 1 = Ok r /\
      egm_values r 0%nat 0%nat = 5.
Proof. exact egm_one_iteration_refuted. Qed.
Print Assumptions C35_one_iteration_refuted.

(** C35 fails for quadrature points off the exogenous grid: the rule used there obeys the bounds of another point. *)
Theorem C35_gdp_refuted :
  forall el nan sa0 xa0 ss,
    let lb := fun m _ => Fin (hd 0 m) in
    dp_node (ex_dp (gdp_exo shift_gdp)) 0 0 = [1] /\
    ~ ext_le_l (lb (dp_node (ex_dp (gdp_exo shift_gdp)) 0 0) ss)
               (drfut (gdp_exo shift_gdp) false lb lb el nan sa0 xa0 0 ss).
Proof. exact egm_gdp_refuted. Qed.
Print Assumptions C35_gdp_refuted.

(** C89.  What a run reports: the flag compares the error with the tolerance, and a run that is not flagged used all its
    iterations. *)
Theorem C89_run :
  forall exo (is_iid : bool) s a N_a n_h h gt tau atau lb ub dr0 el nan tol maxit r,
    egm exo is_iid s a N_a n_h h gt tau atau lb ub dr0 el nan true tol maxit = Ok r ->
    (egm_it r < maxit)%nat /\ (egm_converged r = true <-> egm_eta r < tol) /\
    (egm_converged r = false -> egm_it r = (maxit - 1)%nat).
Proof. exact egm_report. Qed.
Print Assumptions C89_run.

(** C89.  When egm reports convergence, the returned rule X interpolates controls xa at endogenous states sa, projected on
    the bounds; and the controls and states implied by the expectations under X are within the tolerance of (xa, sa). *)
Theorem C89_converged :
  forall exo (is_iid : bool) s a N_a n_h h gt tau atau lb ub dr0 el nan,
    (forall i (ss : R), lb (ex_node exo i) ss <> PInf /\ ub (ex_node exo i) ss <> MInf /\ ext_le (lb (ex_node exo i) ss) (ub (ex_node exo i) ss)) ->
    forall tol maxit r,
      egm exo is_iid s a N_a n_h h gt tau atau lb ub dr0 el nan true tol maxit = Ok r -> tol <= 1 -> egm_converged r = true ->
      (0 < ex_n exo * N_a)%nat /\
      exists (X : nat -> R -> R) sa xa sa' xa' e1 e2,
        (forall i ss, let c := if is_iid then 0%nat else i in
           projection (lb (ex_node exo c) ss) (ub (ex_node exo c) ss) (el (sa c) (xa c) ss) (X i ss)) /\
        (forall i n, egm_values r i n = X i (nth n s 0)) /\
        (forall i p, egm_response n_h (dp_n (ex_dp exo) i) (dp_weight (ex_dp exo) i) (dp_node (ex_dp exo) i) X
                       h gt tau atau (ex_node exo i) (a p) (xa' i p) (sa' i p)) /\
        distance2_is (ex_n exo) N_a xa' xa e1 /\ distance2_is (ex_n exo) N_a sa' sa e2 /\ e1 + e2 < tol.
Proof. exact egm_converges. Qed.
Print Assumptions C89_converged.

(** C89.  The rules are the iterates of the endogenous grid step: from the initial rule, each one interpolates the
    controls at the states implied by the expectations under the previous rule, projected on the bounds.  The rule
    returned is the one of the last iteration: the one tested if the run converged, the one it gave otherwise. *)
Theorem C89_iterates :
  forall exo (is_iid : bool) s a N_a n_h h gt tau atau lb ub dr0 el nan,
    (forall i (ss : R), lb (ex_node exo i) ss <> PInf /\ ub (ex_node exo i) ss <> MInf /\ ext_le (lb (ex_node exo i) ss) (ub (ex_node exo i) ss)) ->
    forall tol maxit r,
      egm exo is_iid s a N_a n_h h gt tau atau lb ub dr0 el nan true tol maxit = Ok r -> (1 <= egm_it r)%nat ->
      exists (X : nat -> nat -> R -> R) (sa xa : nat -> nat -> nat -> R),
        X 0%nat = dr0 /\
        (forall t i p, egm_response n_h (dp_n (ex_dp exo) i) (dp_weight (ex_dp exo) i) (dp_node (ex_dp exo) i) (X t)
                       h gt tau atau (ex_node exo i) (a p) (xa (S t) i p) (sa (S t) i p)) /\
        (forall t i ss, let c := if is_iid then 0%nat else i in
           projection (lb (ex_node exo c) ss) (ub (ex_node exo c) ss) (el (sa (S t) c) (xa (S t) c) ss) (X (S t) i ss)) /\
        (forall i n, egm_values r i n = X (if egm_converged r then egm_it r else S (egm_it r)) i (nth n s 0)).
Proof. exact egm_iterates. Qed.
Print Assumptions C89_iterates.

(** C89.  Without iterations, or without a grid of post-states, there is no result. *)
Theorem C89_never_runs :
  forall exo (is_iid : bool) s a N_a n_h h gt tau atau lb ub dr0 el nan tol,
    egm exo is_iid s a N_a n_h h gt tau atau lb ub dr0 el nan true tol 0 = Err ExcName /\
    forall maxit, egm exo is_iid s a N_a n_h h gt tau atau lb ub dr0 el nan false tol maxit
                  = Err (ExcGeneric "You must supply a grid for the post-states.").
Proof. exact egm_never_runs. Qed.
Print Assumptions C89_never_runs.

(** A problem whose response does not depend on the future: it converges in the third iteration. *)
Example C89_example :
  forall nan,
  exists r, egm one_exo false [0] (fun p => INR p) 2 1 (fun _ _ X _ => X) (fun _ a _ => a) (fun _ a _ => a / 2) (fun _ a x => a + x)
                (fun _ _ => Fin 0) (fun _ _ => Fin 1) (fun _ _ => 5) (fun _ _ x => x) nan true (1 / 1000000) 10 = Ok r /\
    egm_converged r = true /\ egm_it r = 2%nat.
Proof. exact egm_small. Qed.
