(** What a rule written as equations should return. *)
From Coq Require Import String List Bool ZArith.
From Verif Require Import Base.Prelude Base.Dict Model.Factories Model.CustomDR Spec.Factories.
Import ListNotations.
Open Scope list_scope.

Section Spec.
Context {V : Type}.
Variable op1 : string -> V -> res V.
Variable op2 : string -> V -> V -> res V.

(** The names given an equation. *)
Definition defined_names (values : list (ckey * expr V)) : list string := key_names values.

(** Reading an expression: a plain name has its value; a variable, not a parameter, can also be written at date 0. *)
Definition read_name (variables : list string) (sigma : string -> option V) (x : sym) : option V :=
  match x with
  | SPar s => sigma s
  | SVar s t => if (t =? 0)%Z && existsb (String.eqb s) variables then sigma s else None
  end.
Definition value_of (cm : cmodel V) (values : list (ckey * expr V)) (sigma : string -> option V) (e : expr V) : res V :=
  eval op1 op2 (read_name (cm_exogenous cm ++ cm_states cm ++ defined_names values) sigma) e.

(** The values of all names at the point (m, s): exogenous variables and states at this point, parameters of the
    calibration, intermediate names from their equations. *)
Definition rule_names (cm : cmodel V) (values : list (ckey * expr V)) (m s : list V) (sigma : string -> option V) : Prop :=
  (forall i x, nth_error (cm_exogenous cm) i = Some x -> exists v, nth_error m i = Some v /\ sigma x = Some v) /\
  (forall i x, nth_error (cm_states cm) i = Some x -> exists v, nth_error s i = Some v /\ sigma x = Some v) /\
  (forall i x, nth_error (cm_parameters cm) i = Some x -> exists v, nth_error (cm_p cm) i = Some v /\ sigma x = Some v) /\
  (forall y e, In (KName y, e) values -> ~ In y (cm_controls cm) ->
     exists v, value_of cm values sigma e = Ok v /\ sigma y = Some v) /\
  (forall x v, sigma x = Some v -> In x (cm_exogenous cm) \/ In x (cm_states cm) \/ In x (cm_parameters cm) \/
     exists e, In (KName x, e) values /\ ~ In x (cm_controls cm)).

(** [outs] are the values of the equations of the controls, in the order of the controls. *)
Definition rule_value (cm : cmodel V) (values : list (ckey * expr V)) (m s outs : list V) : Prop :=
  exists sigma, rule_names cm values m s sigma /\
    Forall2 (fun c v => exists e, In (KName c, e) values /\ value_of cm values sigma e = Ok v) (cm_controls cm) outs.

(** Names are declared once, equations are given to plain names that are controls or new names. *)
Definition rule_wf (cm : cmodel V) (values : list (ckey * expr V)) : Prop :=
  NoDup (cm_exogenous cm ++ cm_states cm ++ cm_controls cm ++ cm_parameters cm) /\
  NoDup (map fst values) /\
  forall k, In k (map fst values) -> exists y, k = KName y /\
    ~ In y (cm_exogenous cm) /\ ~ In y (cm_states cm) /\ ~ In y (cm_parameters cm).

(** The equations of the controls do not use the controls. *)
Definition controls_unused (cm : cmodel V) (values : list (ckey * expr V)) : Prop :=
  forall c e d, In (KName c, e) values -> In c (cm_controls cm) -> In d (cm_controls cm) ->
    ~ mentions e (SPar d) /\ ~ mentions e (SVar d 0).
End Spec.
