(** What the attributes of a model should be, read off its file. *)
From Coq Require Import String List Bool ZArith.
From Verif Require Import Base.Prelude Base.Dict Model.Factories Spec.Factories Model.ModelCaches.
Import ListNotations.
Open Scope string_scope.
Open Scope list_scope.

Section Spec.
Context {V RE EQ F : Type}.

(** Names of all symbols but the parameters. *)
Definition all_names (s : dict (list string)) : list string :=
  concat (map snd (filter (fun e => negb (fst e =? "parameters")) s)).
Definition all_parameters (s : dict (list string)) : list string :=
  match dget s "parameters" with Some l => l | None => [] end.

(** The file declares the symbols [s] (auxiliary variables included) and the definitions [defs]. *)
Definition declares (d : filedata V RE) (s : dict (list string)) (defs : dict (expr V)) : Prop :=
  match fd_definitions d with
  | NoDefinitions => s = fd_symbols d /\ defs = []
  | Block lines =>
      (forall i line, nth_error lines i = Some line ->
         right_line (all_names (fd_symbols d) ++ map (fun l => fst (fst l)) (firstn i lines)) (all_parameters (fd_symbols d)) line) /\
      s = dset (fd_symbols d) "auxiliaries" (map (fun l => fst (fst l)) lines) /\
      defs = map (fun l => (fst (fst l), snd l)) lines
  | Mapping lines =>
      Forall (fun l => snd (fst l) = 0%Z) lines /\
      s = dset (fd_symbols d) "auxiliaries" (map (fun l => fst (fst l)) lines) /\
      defs = map (fun l => (fst (fst l), snd l)) lines
  end.

(** Definitions written as a mapping add their keys, 'y[t]', to the list of variables. *)
Definition mapping_keys (d : filedata V RE) : list string :=
  match fd_definitions d with Mapping lines => map (fun l => (fst (fst l) ++ "[t]")%string) lines | _ => [] end.

(** Reading an attribute, and what is seen if the symbols, definitions, equations and functions are these. *)
Definition is_read (a : action V RE) : Prop :=
  match a with ASymbols | ADefinitions | AVariables | AEquations | AFunctions | AEgm | AChanged false => True | _ => False end.
Definition answer (d : filedata V RE) (s : dict (list string)) (defs : dict (expr V)) (e : EQ) (f : F) (a : action V RE) : seen V EQ F :=
  match a with
  | ASymbols => SSymbols (Ok s)
  | ADefinitions => SDefinitions (Ok defs)
  | AVariables => SVariables (Ok (all_names s ++ mapping_keys d))
  | AEquations => SEquations (Ok e)
  | AFunctions | AEgm => SFunctions (Ok f)
  | AChanged _ | AEdit _ => SDone
  end.

(** The names known when the equations are parsed. *)
Definition names_for_equations (d : filedata V RE) (s : dict (list string)) (defs : dict (expr V)) : list string :=
  (all_names s ++ mapping_keys d) ++ map (fun x => (fst x ++ "[t]")%string) defs.
End Spec.
