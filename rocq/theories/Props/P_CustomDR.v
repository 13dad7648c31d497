(** Properties of decision rules written as equations (dolo/numeric/decision_rule.py, CustomDR): C112. *)
From Coq Require Import String List Bool ZArith Lia Permutation Reals.
From Verif Require Import Base.Prelude Base.Dict Model.Factories Model.DecisionRule Model.CustomDR
  Spec.Factories Spec.CustomDR Proofs.FactoriesProofs Proofs.FactoriesFinal Proofs.CustomDRProofs.
Import ListNotations.
Open Scope string_scope.
Open Scope list_scope.

(** C112. On arrays with as many rows, row i of the answer holds, for each control, the value of its equation when the
    exogenous variables and the states have the values of row i, parameters those of the calibration and
    intermediate names those of their own equations; and an answer is given if and only if all these values exist. *)
Theorem C112_rows_partial : forall (V : Type) op1 op2 (cm : cmodel V) values, rule_wf cm values ->
  forall reorder, sorts reorder -> forall keep r ms ss outs,
  (keep = true -> controls_unused cm values) -> custom_dr reorder cm values = Ok r ->
  List.length ms = List.length ss ->
  (custom_eval_ms op1 op2 keep r ms ss = Ok outs <->
   List.length outs = List.length ss /\
   forall i m s, nth_error ms i = Some m -> nth_error ss i = Some s ->
     exists o, nth_error outs i = Some o /\ rule_value op1 op2 cm values m s o).
Proof. exact @custom_rows. Qed.
Print Assumptions C112_rows_partial.

(** The same with one exogenous point for all states; other numbers of rows raise ValueError. *)
Theorem C112_one_exogenous_partial : forall (V : Type) op1 op2 (cm : cmodel V) values, rule_wf cm values ->
  forall reorder, sorts reorder -> forall keep r m ss outs,
  (keep = true -> controls_unused cm values) -> custom_dr reorder cm values = Ok r ->
  (custom_eval_ms op1 op2 keep r [m] ss = Ok outs <->
   List.length outs = List.length ss /\
   forall i s, nth_error ss i = Some s -> exists o, nth_error outs i = Some o /\ rule_value op1 op2 cm values m s o).
Proof. exact @custom_rows_one. Qed.
Print Assumptions C112_one_exogenous_partial.
Theorem C112_mismatch : forall (V : Type) op1 op2 keep (r : custom_rule V) ms ss,
  List.length ms <> List.length ss -> List.length ms <> 1%nat -> List.length ss <> 1%nat ->
  custom_eval_ms op1 op2 keep r ms ss = Err ExcValue.
Proof. exact @custom_rows_mismatch. Qed.
Print Assumptions C112_mismatch.

(** Calling the rule on one point. *)
Theorem C112_call_partial : forall op1 op2 cm values reorder keep r m s o,
  rule_wf cm values -> sorts reorder -> (keep = true -> controls_unused cm values) -> custom_dr reorder cm values = Ok r ->
  (custom_call2 op1 op2 keep r (Pts (P1 m)) (P1 s) = Ok (P1 o) <-> rule_value op1 op2 cm values m s o).
Proof. exact custom_call_point. Qed.
Print Assumptions C112_call_partial.

(** A control without an equation is refused when the rule is made. *)
Theorem C112_missing : forall (V : Type) (cm : cmodel V) values, rule_wf cm values -> forall reorder c,
  In c (cm_controls cm) -> ~ In (KName c) (map fst values) -> custom_dr reorder cm values = Err ExcKey.
Proof. exact @custom_missing. Qed.
Print Assumptions C112_missing.

(** A rule i = b*y, n = k - z with the intermediate name y = k + z: hypotheses and values. *)
Definition toy_cm (b : Z) (d : res unit) : cmodel Z := CModel ["z"] ["k"] ["n"; "i"] ["b"] [b] d (Ok tt).
Definition toy_values (key : ckey) : list (ckey * expr Z) :=
  [(KName "i", EApp2 "*" (ESym (SPar "b")) (ESym (SPar "y")));
   (key, EApp2 "+" (ESym (SPar "k")) (ESym (SVar "z" 0)));
   (KName "n", EApp2 "-" (ESym (SPar "k")) (ESym (SPar "z")))].
Definition cop1 (f : string) (a : Z) : res Z := Err ExcName.
Definition cop2 (f : string) (a b : Z) : res Z :=
  if (f =? "+")%string then Ok (a + b)%Z else if (f =? "*")%string then Ok (a * b)%Z
  else if (f =? "-")%string then Ok (a - b)%Z else Err ExcName.
Example C112_example : rule_wf (toy_cm 3 (Ok tt)) (toy_values (KName "y")) /\ @sorts Z check_sorted /\
  controls_unused (toy_cm 3 (Ok tt)) (toy_values (KName "y")) /\
  exists r, custom_dr check_sorted (toy_cm 3 (Ok tt)) (toy_values (KName "y")) = Ok r /\
    forall keep, custom_eval_ms cop1 cop2 keep r [[1%Z]; [2%Z]] [[10%Z]; [20%Z]] = Ok [[9%Z; 33%Z]; [18%Z; 66%Z]].
Proof.
  split; [|split; [exact check_sorted_sorts|split]].
  - split; [|split].
    + vm_compute. repeat constructor; simpl; intuition discriminate.
    + vm_compute. repeat constructor; simpl; intuition discriminate.
    + intros k H. simpl in H. destruct H as [<-|[<-|[<-|[]]]]; eexists; (split; [reflexivity|]); simpl; intuition discriminate.
  - intros c e d H C D. simpl in H, C, D.
    destruct H as [H|[H|[H|[]]]]; injection H as <- <-; destruct D as [<-|[<-|[]]]; simpl; intuition discriminate.
  - eexists. split; [vm_compute; reflexivity|]. intros [|]; vm_compute; reflexivity.
Qed.

(** Refuted for the other ways of calling a rule: with an integer first argument, or with the states only, every call
    raises AttributeError. *)
Theorem C112_index_refuted : forall op1 op2 keep r i s, custom_call2 op1 op2 keep r (Idx i) s = Err ExcAttribute.
Proof. exact custom_call_index. Qed.
Print Assumptions C112_index_refuted.
Theorem C112_states_only_refuted : forall s, custom_call1 s = Err ExcAttribute.
Proof. exact custom_call_one. Qed.
Print Assumptions C112_states_only_refuted.

(** Refuted for intermediate names written with their date: "y(0)" in place of "y" makes the same rule raise NameError at
    every point. *)
Theorem C112_dated_refuted : exists r, custom_dr check_sorted (toy_cm 3 (Ok tt)) (toy_values (KDated "y" 0)) = Ok r /\
  forall keep z k, custom_eval_ms cop1 cop2 keep r [[z]] [[k]] = Err ExcName.
Proof. eexists. split; [vm_compute; reflexivity|intros [|] z k; reflexivity]. Qed.
Print Assumptions C112_dated_refuted.

(** Refuted for later calibrations: a rule keeps the parameters of the time when it was made. *)
Theorem C112_frozen_refuted : exists r r', custom_dr check_sorted (toy_cm 3 (Ok tt)) (toy_values (KName "y")) = Ok r /\
  custom_dr check_sorted (toy_cm 5 (Ok tt)) (toy_values (KName "y")) = Ok r' /\
  forall keep, custom_eval_ms cop1 cop2 keep r [[1%Z]] [[10%Z]] = Ok [[9%Z; 33%Z]] /\
               custom_eval_ms cop1 cop2 keep r' [[1%Z]] [[10%Z]] = Ok [[9%Z; 55%Z]].
Proof. do 2 eexists. split; [vm_compute; reflexivity|split; [vm_compute; reflexivity|intros [|]; split; vm_compute; reflexivity]]. Qed.
Print Assumptions C112_frozen_refuted.

(** Refuted for processes without a default discretisation: although the rule does not use it, it is computed, and its
    failure is that of the construction. *)
Theorem C112_discretize_refuted : forall e, custom_dr check_sorted (toy_cm 3 (Err e)) (toy_values (KName "y")) = Err e.
Proof. exact (fun e => eq_refl). Qed.
Print Assumptions C112_discretize_refuted.
