(** Decision rules written as equations: class CustomDR (dolo/numeric/decision_rule.py 495-559).
    Texts are syntax trees, as in Model/Factories.v: parsing and printing are those of dolang. *)
From Coq Require Import String List Bool ZArith Reals.
From Verif Require Import Base.Prelude Base.Dict Model.Factories Model.DecisionRule.
Import ListNotations.
Open Scope string_scope.
Open Scope list_scope.

(** A key of the dictionary of equations: a plain name, or a text with a parenthesis, "name(date)". *)
Inductive ckey : Type := KName (s : string) | KDated (s : string) (t : Z).
Definition ckey_dec : forall a b : ckey, {a = b} + {a <> b}.
Proof. decide equality; (apply Z.eq_dec || apply string_dec). Defined.

Section Custom.
Context {V : Type}.

(** What the constructor reads of a model: symbols, calibration["parameters"], and the outcomes of
    exogenous.discretize() and endo_grid. *)
Record cmodel : Type := CModel {
  cm_exogenous : list string; cm_states : list string; cm_controls : list string; cm_parameters : list string;
  cm_p : list V; cm_discretized : res unit; cm_grid : res unit }.

Fixpoint kget (d : list (ckey * expr V)) (k : ckey) : option (expr V) :=
  match d with
  | [] => None
  | (k', v) :: r => if ckey_dec k k' then Some v else kget r k
  end.

(** 505: the keys that are not controls; a dated key is the name of no control. *)
Definition not_control (m : cmodel) (k : ckey) : bool :=
  match k with KName s => negb (existsb (String.eqb s) (cm_controls m)) | KDated _ _ => true end.
Definition custom_preamble (m : cmodel) (values : list (ckey * expr V)) : list (ckey * expr V) :=
  filter (fun e => not_control m (fst e)) values.

(** 508: variables. A dated key is in the list as a text, which is the name of no symbol. *)
Definition key_names (l : list (ckey * expr V)) : list string :=
  flat_map (fun e => match fst e with KName s => [s] | KDated _ _ => [] end) l.
Definition custom_variables (m : cmodel) (values : list (ckey * expr V)) : list string :=
  cm_exogenous m ++ cm_states m ++ cm_controls m ++ key_names (custom_preamble m values).

(** 512-519 *)
Definition key_sym (k : ckey) : sym := match k with KName s => SVar s 0 | KDated s t => SVar s t end.
Definition preamble_str (m : cmodel) (values : list (ckey * expr V)) : list (sym * expr V) :=
  sdict (map (fun e => (key_sym (fst e), sanitize (custom_variables m values) (snd e))) (custom_preamble m values)).

(** 506, 529-532 *)
Definition custom_equations (m : cmodel) (values : list (ckey * expr V)) : res (list (expr V)) :=
  map_res (fun s => match kget values (KName s) with Some e => Ok e | None => Err ExcKey end) (cm_controls m).

(** 534-542 *)
Definition custom_arguments (m : cmodel) : dict (list sym) :=
  [("m", map (fun e => SVar e 0) (cm_exogenous m)); ("s", map (fun e => SVar e 0) (cm_states m));
   ("p", map SPar (cm_parameters m))].

(** 544-548. [reorder] stands for 521-527 (dolang's triangular_solver). *)
Definition custom_factory (reorder : list (sym * expr V) -> res (list (sym * expr V)))
  (m : cmodel) (values : list (ckey * expr V)) : res (@factory V) :=
  bind (custom_equations m values) (fun eqs =>
  bind (reorder (preamble_str m values)) (fun pre =>
  Ok (Factory pre
        (sdict (combine (map (fun e => SVar e 0) (cm_controls m)) (map (sanitize (custom_variables m values)) eqs)))
        (custom_arguments m)))).

(** The rule: the compiled function and the parameters read by the constructor (552-555). *)
Record custom_rule : Type := CRule { cr_fun : @factory V; cr_p : list V }.
Definition custom_dr (reorder : list (sym * expr V) -> res (list (sym * expr V)))
  (m : cmodel) (values : list (ckey * expr V)) : res custom_rule :=
  bind (custom_factory reorder m values) (fun f =>
  bind (cm_discretized m) (fun _ => bind (cm_grid m) (fun _ => Ok (CRule f (cm_p m))))).

Variable op1 : string -> V -> res V.
Variable op2 : string -> V -> V -> res V.
Variable keep : bool.

(** 557-559: a generalised ufunc of rows of m, rows of s, and p: rows are paired, a single row being repeated. *)
Definition broadcast {A} (n : nat) (l : list A) : list A := match l with [a] => repeat a n | _ => l end.
Definition custom_eval_ms (r : custom_rule) (m s : list (list V)) : res (list (list V)) :=
  let n := if Nat.eqb (List.length m) 1 then List.length s else List.length m in
  let m' := broadcast n m in let s' := broadcast n s in
  if Nat.eqb (List.length m') (List.length s')
  then map_res (fun ms => call op1 op2 keep (cr_fun r) [fst ms; snd ms; cr_p r]) (combine m' s')
  else Err ExcValue.
End Custom.
Arguments cmodel V : clear implicits.
Arguments custom_rule V : clear implicits.

(** CallableDecisionRule.__call__ on such a rule: the class has neither eval_s nor eval_is. *)
Definition custom_call1 (s : points) : res points := call1 (fun _ => Err ExcAttribute) s.
Definition custom_call2 (op1 : string -> R -> res R) (op2 : string -> R -> R -> res R) (keep : bool) (r : custom_rule R)
  (a : first_arg) (s : points) : res points :=
  call2 (fun _ _ => Err ExcAttribute) (custom_eval_ms op1 op2 keep r) a s.
