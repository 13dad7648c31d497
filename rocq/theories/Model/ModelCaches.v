(** What a model remembers of its file: symbols, definitions, variables, equations and compiled functions.
    /repo/dolo/compiler/model.py 14-40, 42-128, 130-252, 533-561, 605-646; /repo/dolo/algos/egm.py 44. *)
From Coq Require Import String List Bool ZArith.
From Verif Require Import Base.Prelude Base.Dict Model.Factories.
Import ListNotations.
Open Scope string_scope.
Open Scope list_scope.

Section Caches.
(** [V]: numbers; [RE]: the 'equations' section of the file; [EQ]: parsed equations; [F]: compiled functions. *)
Context {V RE EQ F : Type}.
(** model.py 45-126: parsing the equations, from the names of variables and the symbols (dolang's grammar). *)
Variable parse_equations : RE -> list string -> dict (list string) -> res EQ.
(** model.py 605-640: compilation (get_factory, dolang and numba). *)
Variable compile : dict (list string) -> EQ -> dict (expr V) -> res F.

(** The 'definitions' section: absent, a block of text, or a mapping; lines are (name, date, right-hand side). *)
Inductive definitions_section : Type :=
| NoDefinitions
| Block (lines : list (string * Z * expr V))
| Mapping (lines : list (string * Z * expr V)).

Record filedata : Type := File {
  fd_symbols : dict (list string);
  fd_definitions : definitions_section;
  fd_equations : RE }.

(** [data], [__symbols__], [__definitions__], [__variables__], [__equations__], [__functions__] (the attribute
    [__original_gufunctions__] is created together with the last). *)
Record model : Type := MkModel {
  m_data : filedata;
  m_symbols : option (dict (list string));
  m_definitions : option (dict (expr V));
  m_variables : option (list string);
  m_equations : option EQ;
  m_functions : option F }.

Definition with_symbols (o : model) s := MkModel (m_data o) (Some s) (m_definitions o) (m_variables o) (m_equations o) (m_functions o).
Definition with_definitions (o : model) d := MkModel (m_data o) (m_symbols o) (Some d) (m_variables o) (m_equations o) (m_functions o).
Definition with_variables (o : model) v := MkModel (m_data o) (m_symbols o) (m_definitions o) (Some v) (m_equations o) (m_functions o).
Definition with_equations (o : model) e := MkModel (m_data o) (m_symbols o) (m_definitions o) (m_variables o) (Some e) (m_functions o).
Definition with_functions (o : model) f := MkModel (m_data o) (m_symbols o) (m_definitions o) (m_variables o) (m_equations o) (Some f).

(** model.py 35-37, 140-143: the names of all groups but 'parameters', in order. *)
Definition variables_of (s : dict (list string)) : list string :=
  concat (map snd (filter (fun e => negb (fst e =? "parameters")) s)).

(** The parameters of the table; a missing group gives none (the code then raises KeyError at the first parameter met in a
    definition, instead of 'must be defined': an exception in both cases). *)
Definition parameters_of (s : dict (list string)) : list string :=
  match dget s "parameters" with Some l => l | None => [] end.

(** The key of a definition, as text: 'y[t]'. *)
Definition timed (name : string) : string := (name ++ "[t]")%string.

(** model.py 221-247: the loop over a mapping. [vars] IS the list kept in [__variables__] (line 218), to which the keys
    are appended; an exception leaves what was appended. *)
Fixpoint mapping_loop (vars : list string) (lines : list (string * Z * expr V)) : list string * res (dict (expr V)) :=
  match lines with
  | [] => (vars, Ok [])
  | (name, date, rhs) :: r =>
      if negb (Z.eqb date 0) then (vars, Err ExcAssert)
      else match mapping_loop (vars ++ [timed name]) r with
           | (vars', Ok d) => (vars', Ok ((name, rhs) :: d))
           | (vars', Err e) => (vars', Err e)
           end
  end.

(** model.py 137-250: the body of [definitions], once [self.symbols] has given [s]. *)
Definition definitions_body (o : model) (s : dict (list string)) : model * res (dict (expr V)) :=
  match fd_definitions (m_data o) with
  | NoDefinitions => (with_definitions o [], Ok [])                                         (* 148-149 *)
  | Block lines =>                                                                         (* 152-205 *)
      match read_definitions (variables_of s) (parameters_of s) lines with
      | Err e => (o, Err e)
      | Ok (auxs, defs) => (with_definitions (with_symbols o (dset s "auxiliaries" auxs)) defs, Ok defs)
      end
  | Mapping lines =>                                                                       (* 207-250 *)
      let auxs := map (fun l => fst (fst l)) lines in
      let s' := dset s "auxiliaries" auxs in
      let o1 := with_symbols o s' in
      let vars := match m_variables o1 with Some v => v | None => variables_of s' end in     (* 218 *)
      match mapping_loop vars lines with
      | (vars', Err e) => (with_variables o1 vars', Err e)
      | (vars', Ok defs) => (with_definitions (with_variables o1 vars') defs, Ok defs)
      end
  end.

(** model.py 14-30 [symbols]: the table is kept before the definitions are read. *)
Definition read_symbols (o : model) : model * res (dict (list string)) :=
  match m_symbols o with
  | Some s => (o, Ok s)
  | None =>
      let s := fd_symbols (m_data o) in
      let o1 := with_symbols o s in
      match m_definitions o1 with
      | Some _ => (o1, Ok s)
      | None =>
          match definitions_body o1 s with
          | (o2, Err e) => (o2, Err e)
          | (o2, Ok _) => (o2, Ok (match m_symbols o2 with Some s' => s' | None => s end))
          end
      end
  end.

(** model.py 130-252 [definitions]: the test of line 135 comes before [self.symbols] (line 138), which may itself have
    read the definitions. *)
Definition read_defs (o : model) : model * res (dict (expr V)) :=
  match m_definitions o with
  | Some d => (o, Ok d)
  | None =>
      match read_symbols o with
      | (o1, Err e) => (o1, Err e)
      | (o1, Ok s) => definitions_body o1 s
      end
  end.

(** model.py 32-40 [variables]. *)
Definition read_variables (o : model) : model * res (list string) :=
  match m_variables o with
  | Some v => (o, Ok v)
  | None =>
      match read_symbols o with
      | (o1, Err e) => (o1, Err e)
      | (o1, Ok s) => (with_variables o1 (variables_of s), Ok (variables_of s))
      end
  end.

(** model.py 42-128 [equations]. *)
Definition read_equations (o : model) : model * res EQ :=
  match m_equations o with
  | Some e => (o, Ok e)
  | None =>
      match read_variables o with
      | (o1, Err x) => (o1, Err x)
      | (o1, Ok vars) =>
          match read_defs o1 with
          | (o2, Err x) => (o2, Err x)
          | (o2, Ok defs) =>
              match read_symbols o2 with
              | (o3, Err x) => (o3, Err x)
              | (o3, Ok s) =>
                  match parse_equations (fd_equations (m_data o3)) (vars ++ map (fun d => timed (fst d)) defs) s with
                  | Err x => (o3, Err x)
                  | Ok e => (with_equations o3 e, Ok e)
                  end
              end
          end
      end
  end.

(** model.py 605-646 [functions]. *)
Definition read_functions (o : model) : model * res F :=
  match m_functions o with
  | Some f => (o, Ok f)
  | None =>
      match read_equations o with
      | (o1, Err x) => (o1, Err x)
      | (o1, Ok e) =>
          match read_defs o1 with
          | (o2, Err x) => (o2, Err x)
          | (o2, Ok defs) =>
              match read_symbols o2 with
              | (o3, Err x) => (o3, Err x)
              | (o3, Ok s) =>
                  match compile s e defs with
                  | Err x => (o3, Err x)
                  | Ok f => (with_functions o3 f, Ok f)
                  end
              end
          end
      end
  end.

(** egm.py 44: [model.__original_gufunctions__]. *)
Definition read_gufunctions (o : model) : res F :=
  match m_functions o with Some f => Ok f | None => Err ExcAttribute end.

(** model.py 553-561 [set_changed(all)]: the part that concerns these attributes. *)
Definition set_changed (o : model) (all : bool) : model :=
  if all then MkModel (m_data o) None None None None (m_functions o) else o.

(** model.py 533-551: [Model(data, check)]; the checks read the attributes in this order (the calibration, domain,
    exogenous processes and bounds, of C61-C64, only read them again). *)
Definition new_model (d : filedata) : model := MkModel d None None None None None.
Definition checked_model (d : filedata) : res model :=
  match read_symbols (new_model d) with
  | (_, Err e) => Err e
  | (o1, Ok _) =>
      match read_defs o1 with
      | (_, Err e) => Err e
      | (o2, Ok _) => match read_functions o2 with (_, Err e) => Err e | (o3, Ok _) => Ok o3 end
      end
  end.

(** What a user can do with the object, and what they see. The file contents [model.data] may be edited. *)
Inductive action : Type :=
| ASymbols | ADefinitions | AVariables | AEquations | AFunctions | AEgm
| AChanged (all : bool)
| AEdit (d : filedata).

Inductive seen : Type :=
| SSymbols (r : res (dict (list string)))
| SDefinitions (r : res (dict (expr V)))
| SVariables (r : res (list string))
| SEquations (r : res EQ)
| SFunctions (r : res F)
| SDone.

Definition act (o : model) (a : action) : model * seen :=
  match a with
  | ASymbols => let (o', r) := read_symbols o in (o', SSymbols r)
  | ADefinitions => let (o', r) := read_defs o in (o', SDefinitions r)
  | AVariables => let (o', r) := read_variables o in (o', SVariables r)
  | AEquations => let (o', r) := read_equations o in (o', SEquations r)
  | AFunctions => let (o', r) := read_functions o in (o', SFunctions r)
  | AEgm => (o, SFunctions (read_gufunctions o))
  | AChanged all => (set_changed o all, SDone)
  | AEdit d => (MkModel d (m_symbols o) (m_definitions o) (m_variables o) (m_equations o) (m_functions o), SDone)
  end.

Fixpoint history (o : model) (h : list action) : list seen :=
  match h with [] => [] | a :: r => let (o', s) := act o a in s :: history o' r end.
Fixpoint after (o : model) (h : list action) : model :=
  match h with [] => o | a :: r => after (fst (act o a)) r end.
End Caches.
Arguments definitions_section : clear implicits.
Arguments filedata : clear implicits.
Arguments model : clear implicits.
Arguments action : clear implicits.
Arguments seen : clear implicits.
