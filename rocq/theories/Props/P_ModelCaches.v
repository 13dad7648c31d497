(** Property theorems C121: the attributes of a model follow its file. *)
From Coq Require Import String List Bool ZArith.
From Verif Require Import Base.Prelude Base.Dict Model.Factories Spec.Factories Model.ModelCaches Spec.ModelCaches
  Proofs.ModelCachesProofs.
Import ListNotations.
Open Scope string_scope.
Open Scope list_scope.

(** C121.  On a model built with the default checks, reading attributes in any order and any number of times shows the
    symbols, definitions, equations and functions of the file. *)
Theorem C121_reads_partial :
  forall (V RE EQ F : Type) (parse : RE -> list string -> dict (list string) -> res EQ)
         (compile : dict (list string) -> EQ -> dict (expr V) -> res F) (d : filedata V RE) o,
    checked_model parse compile d = Ok o ->
    exists s defs e f, declares d s defs /\ parse (fd_equations d) (names_for_equations d s defs) s = Ok e /\
      compile s e defs = Ok f /\ forall h, Forall is_read h -> history parse compile o h = map (answer d s defs e f) h.
Proof. exact @checked_reads. Qed.
Print Assumptions C121_reads_partial.

(** Files whose definitions are right and whose equations parse and compile are accepted. *)
Theorem C121_accepts :
  forall (V RE EQ F : Type) (parse : RE -> list string -> dict (list string) -> res EQ)
         (compile : dict (list string) -> EQ -> dict (expr V) -> res F) (d : filedata V RE) s defs e f,
    declares d s defs -> parse (fd_equations d) (names_for_equations d s defs) s = Ok e -> compile s e defs = Ok f ->
    exists o, checked_model parse compile d = Ok o.
Proof. exact @checked_accepts. Qed.
Print Assumptions C121_accepts.

(** After the file is edited and [set_changed(all=True)] called, the attributes read after the symbols are those of the new
    file, except the functions, which are those compiled from the old one. *)
Theorem C121_edited_partial :
  forall (V RE EQ F : Type) (parse : RE -> list string -> dict (list string) -> res EQ)
         (compile : dict (list string) -> EQ -> dict (expr V) -> res F) (o : model V RE EQ F) f d s defs e,
    snd (act parse compile o AFunctions) = SFunctions (Ok f) -> declares d s defs ->
    parse (fd_equations d) (names_for_equations d s defs) s = Ok e -> forall h0 h, Forall is_read h ->
    history parse compile (after parse compile o (AFunctions :: h0)) (AEdit d :: AChanged true :: ASymbols :: h)
    = SDone :: SDone :: SSymbols (Ok s) :: map (answer d s defs e f) h.
Proof. exact @edited_after_functions. Qed.
Print Assumptions C121_edited_partial.

(** The functions are compiled once: whatever happens later, the same are served, also to egm. *)
Theorem C121_functions_kept :
  forall (V RE EQ F : Type) (parse : RE -> list string -> dict (list string) -> res EQ)
         (compile : dict (list string) -> EQ -> dict (expr V) -> res F) (o : model V RE EQ F) f h,
    snd (act parse compile o AFunctions) = SFunctions (Ok f) ->
    snd (act parse compile (after parse compile o (AFunctions :: h)) AFunctions) = SFunctions (Ok f) /\
    snd (act parse compile (after parse compile o (AFunctions :: h)) AEgm) = SFunctions (Ok f).
Proof. exact @functions_kept. Qed.
Print Assumptions C121_functions_kept.

(** On a model built without the checks, egm raises AttributeError until the functions have been read. *)
Theorem C121_egm :
  forall (V RE EQ F : Type) (parse : RE -> list string -> dict (list string) -> res EQ)
         (compile : dict (list string) -> EQ -> dict (expr V) -> res F) h (d : filedata V RE),
    ~ In AFunctions h ->
    snd (act parse compile (after parse compile (new_model d) h) AEgm) = SFunctions (Err ExcAttribute).
Proof. intros V RE EQ F parse compile h d. exact (egm_first parse compile h (new_model d) eq_refl). Qed.
Print Assumptions C121_egm.

(** A small file: y[t] = k[t], with equations and functions standing for themselves. *)
Definition sample_lines : list (string * Z * expr Z) := [("y", 0%Z, ESym (SVar "k" 0%Z))].
Definition sample (defs : definitions_section Z) (eqs : nat) : filedata Z nat :=
  File [("states", ["k"]); ("parameters", ["b"])] defs eqs.
Definition same_parse (r : nat) (_ : list string) (_ : dict (list string)) : res nat := Ok r.
Definition same_compile (_ : dict (list string)) (e : nat) (_ : dict (expr Z)) : res nat := Ok e.
Notation look d h := (history same_parse same_compile (new_model d) h).

Example C121_example :
  exists o, checked_model same_parse same_compile (sample (Block sample_lines) 1) = Ok o /\
    history same_parse same_compile o [AVariables; AFunctions; ASymbols]
    = [SVariables (Ok ["k"; "y"]); SFunctions (Ok 1);
       SSymbols (Ok [("states", ["k"]); ("parameters", ["b"]); ("auxiliaries", ["y"])])].
Proof. eexists. split; reflexivity. Qed.

(** Announced edits do not reach the functions: the equations are the new ones, the functions the old ones. *)
Theorem C121_stale_functions_refuted :
  exists o, checked_model same_parse same_compile (sample NoDefinitions 1) = Ok o /\
    history same_parse same_compile o [AEdit (sample NoDefinitions 2); AChanged true; AEquations; AFunctions]
    = [SDone; SDone; SEquations (Ok 2); SFunctions (Ok 1)] /\
    look (sample NoDefinitions 2) [AFunctions] = [SFunctions (Ok 2)].
Proof. eexists. split; [reflexivity|]. split; reflexivity. Qed.
Print Assumptions C121_stale_functions_refuted.

(** On a valid file, reading the definitions before anything else raises, the second time not. *)
Theorem C121_definitions_first_refuted :
  (exists o, checked_model same_parse same_compile (sample (Block sample_lines) 1) = Ok o) /\
  look (sample (Block sample_lines) 1) [ADefinitions; ADefinitions]
  = [SDefinitions (Err (ExcGeneric "already defined")); SDefinitions (Ok [("y", ESym (SVar "k" 0%Z))])].
Proof. split; [eexists; reflexivity|reflexivity]. Qed.
Print Assumptions C121_definitions_first_refuted.

(** On a file with a wrong definition, the first read of the symbols raises, the second silently gives the symbols without
    auxiliary variables. *)
Theorem C121_wrong_definitions_refuted :
  look (sample (Block [("y", 0%Z, ESym (SVar "unknown" 0%Z))]) 1) [ASymbols; ASymbols]
  = [SSymbols (Err (ExcGeneric "Variable is not defined")); SSymbols (Ok [("states", ["k"]); ("parameters", ["b"])])].
Proof. reflexivity. Qed.
Print Assumptions C121_wrong_definitions_refuted.

(** With definitions given as a mapping, the list of variables contains the text of their keys, or not, depending on what
    was read before. *)
Theorem C121_mapping_variables_refuted :
  look (sample (Mapping sample_lines) 1) [AVariables] = [SVariables (Ok ["k"; "y"])] /\
  exists o, checked_model same_parse same_compile (sample (Mapping sample_lines) 1) = Ok o /\
    history same_parse same_compile o [AVariables] = [SVariables (Ok ["k"; "y"; "y[t]"])].
Proof. split; [reflexivity|]. eexists. split; reflexivity. Qed.
Print Assumptions C121_mapping_variables_refuted.
