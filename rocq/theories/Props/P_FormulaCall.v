(** Property C154: the names of a formula (eval_formula, Model.eval_formula). *)
From Coq Require Import String Ascii List Bool ZArith Arith Lia.
From Verif.Base Require Import Prelude Dict.
From Verif.Proofs Require Import FormulaCallProofs.
From Verif.Model Require Import Factories FormulaCall.
From Verif.Spec Require Import Factories FormulaCall.
Import ListNotations.
Open Scope string_scope.
Open Scope list_scope.

(** Without a table, a formula is evaluated at the values of the context, when its names are ordinary: no double
    underscore, no underscore at the end. *)
Theorem C154_numbers_partial :
  forall (V : Type) (op1 : string -> V -> res V) (op2 : string -> V -> V -> res V) (nan : V) known e,
    ordinary_keys known ->
    eval_formula_call op1 op2 nan e None (Some known) =
    bind (eval op1 op2 (fun x => match x with SPar s => dget known s | SVar _ _ => None end) e) (fun v => Ok (Num v)).
Proof. exact @call_scalar. Qed.
Print Assumptions C154_numbers_partial.

(** With one, a formula that reads it (by a dated variable, or by t) is the series of its values in each row, as in C66,
    and a formula that does not is a number. *)
Theorem C154_series_partial :
  forall (V : Type) (op1 : string -> V -> res V) (op2 : string -> V -> V -> res V) (nan : V) df known (e : expr V),
    (1 <= fr_rows df)%nat -> ordinary_keys known -> (forall s, mentions e (SPar s) -> ordinary s) -> reads_table e -> forall rows,
    eval_formula_call op1 op2 nan e (Some df) (Some known) = Ok (Series rows) <->
    eval_formula_table op1 op2 nan (fr_rows df) (fr_columns df) known (fr_index df) e = Ok rows.
Proof. exact @call_table. Qed.
Print Assumptions C154_series_partial.

Theorem C154_table_not_read :
  forall (V : Type) (op1 : string -> V -> res V) (op2 : string -> V -> V -> res V) (nan : V) df known (e : expr V),
    (1 <= fr_rows df)%nat -> ordinary_keys known -> (forall s, mentions e (SPar s) -> ordinary s) -> ~ reads_table e ->
    eval_formula_call op1 op2 nan e (Some df) (Some known) =
    bind (eval op1 op2 (fun x => match x with SPar s => dget known s | SVar _ _ => None end) e) (fun v => Ok (Num v)).
Proof. exact @call_no_table. Qed.
Print Assumptions C154_table_not_read.

Definition minus (f : string) (a b : Z) : res Z := if f =? "-" then Ok (a - b)%Z else Err ExcName.
Definition demo_frame : @frame Z := Frame 3 [("k", fun i => Z.of_nat (10 * i))] (fun i => Z.of_nat i).

Example C154_case :
  ordinary_keys [("d", 5%Z)] /\
  eval_formula_call (fun _ _ => Err ExcName) minus (-99)%Z
    (EApp2 "-" (EApp2 "-" (ESym (SVar "k" 1)) (ESym (SPar "d"))) (ESym (SPar "t"))) (Some demo_frame) (Some [("d", 5%Z)])
  = Ok (Series [-104; -6; 3]%Z).
Proof. split; [intros k [<-|[]]; apply ordinary_single; discriminate | reflexivity]. Qed.

(** A dated variable that is not a column raises KeyError, whatever the context. *)
Theorem C154_missing :
  forall (V : Type) (op1 : string -> V -> res V) (op2 : string -> V -> V -> res V) (nan : V) df context (e : expr V) s t,
    mentions e (SVar s t) -> ~ In s (dkeys (fr_columns df)) ->
    eval_formula_call op1 op2 nan e (Some df) context = Err ExcKey.
Proof. exact @call_missing. Qed.
Print Assumptions C154_missing.

(** model.eval_formula reads the calibration of the model if and only if no other is given. *)
Theorem C154_model :
  forall (V : Type) (op1 : string -> V -> res V) (op2 : string -> V -> V -> res V) (nan : V) calibration (e : expr V) df,
    (forall known, model_eval_formula op1 op2 nan calibration e df (Some known) = eval_formula_call op1 op2 nan e df (Some known)) /\
    model_eval_formula op1 op2 nan calibration e df None = eval_formula_call op1 op2 nan e df (Some calibration).
Proof. intros; split; [intros known|]; reflexivity. Qed.
Print Assumptions C154_model.

(** Refuted: "a parameter has its calibrated value in a formula on a table".  One called t is the index of the table ... *)
Theorem C154_t_refuted :
  forall (V : Type) (op1 : string -> V -> res V) (op2 : string -> V -> V -> res V) (nan : V) df context,
    eval_formula_call op1 op2 nan (ESym (SPar "t")) (Some df) context = Ok (Series (map (fr_index df) (seq 0 (fr_rows df)))).
Proof. exact @call_t. Qed.
Print Assumptions C154_t_refuted.

(** ... and names that end with an underscore are mixed with those that do not: with a = 1 and a_ = 2 both are 1 (in this
    order only), and with a_ alone, the unknown name a is found. *)
Theorem C154_underscore_refuted :
  forall (V : Type) (op1 : string -> V -> res V) (op2 : string -> V -> V -> res V) (nan one two : V),
    eval_formula_call op1 op2 nan (ESym (SPar "a_")) None (Some [("a", one); ("a_", two)]) = Ok (Num one) /\
    eval_formula_call op1 op2 nan (ESym (SPar "a_")) None (Some [("a_", two); ("a", one)]) = Ok (Num two) /\
    eval_formula_call op1 op2 nan (ESym (SPar "a")) None (Some [("a_", two)]) = Ok (Num two).
Proof. intros. repeat split; reflexivity. Qed.
Print Assumptions C154_underscore_refuted.

(** Refuted: "a variable can be read at the calibration": without a table, k(0) is a NameError, k alone is not; with one,
    k alone is not the column but the calibrated value. *)
Theorem C154_dated_refuted :
  forall (V : Type) (op1 : string -> V -> res V) (op2 : string -> V -> V -> res V) (nan : V) known s v,
    ordinary_keys known -> ordinary s -> s <> "t" -> dget known s = Some v ->
    (forall t, eval_formula_call op1 op2 nan (ESym (SVar s t)) None (Some known) = Err ExcName) /\
    eval_formula_call op1 op2 nan (ESym (SPar s)) None (Some known) = Ok (Num v) /\
    forall df, (1 <= fr_rows df)%nat -> eval_formula_call op1 op2 nan (ESym (SPar s)) (Some df) (Some known) = Ok (Num v).
Proof.
  intros V op1 op2 nan known s v Hk Hs Nt E. split; [|split].
  - intros t. rewrite C154_numbers_partial by exact Hk. reflexivity.
  - rewrite C154_numbers_partial by exact Hk. cbn [eval bind]. rewrite E. reflexivity.
  - intros df HT. rewrite C154_table_not_read; [cbn [eval bind]; rewrite E; reflexivity|exact HT|exact Hk| |].
    + intros s' H. cbn in H. injection H as <-. exact Hs.
    + intros [H|(s' & t' & H)]; cbn in H; [injection H as H; now apply Nt | discriminate H].
Qed.
Print Assumptions C154_dated_refuted.

Example C154_dated_case : ordinary_keys [("k", 3%Z)] /\ ordinary "k" /\ dget [("k", 3%Z)] "k" = Some 3%Z.
Proof. split; [intros k [<-|[]]; apply ordinary_single; discriminate|]. split; [apply ordinary_single; discriminate | reflexivity]. Qed.
