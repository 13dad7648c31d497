(** Importing a model file: [yaml_import] and what the object says of its file.
    /repo/dolo/compiler/model_import.py 7-34; /repo/dolo/misc/display.py 6-24;
    /repo/dolo/compiler/model.py 254-279, 533-551. *)
From Coq Require Import String List Bool Arith.
From Verif Require Import Base.Prelude Base.Dict Model.ModelObject.
Import ListNotations.
Open Scope string_scope.
Open Scope list_scope.

(** Python's [p in s] on strings. *)
Fixpoint within (p s : string) : bool :=
  String.prefix p s || match s with EmptyString => false | String _ r => within p r end.

(** display.py:6-24 [read_file_or_url]. [open_url]: downloading and decoding; [open_file]: reading a
    local file (both external). Only Python 3 is modelled. *)
Definition read_file_or_url (open_url open_file : string -> res string) (url : string) : res string :=
  if within "http" url then open_url url else open_file url.

(** What [data[key]] may be: a scalar of the file (its [value] is its text), a mapping or a sequence of the
    file (its [value] is the list [nodes]), or a Python string put there later, which has no [value]. *)
Inductive item {N : Type} : Type :=
| Scalar (text : string)
| Collection (nodes : N)
| PyString (text : string).
Arguments item : clear implicits.

(** What yaml.compose returns: a mapping, or something else (None for an empty text, a scalar, a sequence),
    in which an entry cannot be written (TypeError). *)
Inductive composed {N : Type} : Type :=
| TopMapping (d : dict (item N))
| TopOther.
Arguments composed : clear implicits.

Section Import.
(** [N]: lists of nodes; [M]: model objects. *)
Context {N M : Type}.
Variables open_url open_file : string -> res string.
Variable compose : string -> res (composed N).
(** Whether the assignment [data[k] = v] of dolang's mappings makes a scalar of a Python string. *)
Variable wraps : bool.
(** model.py:533-551: [Model(data, check)]. *)
Variable build : dict (item N) -> bool -> res M.

(** model_import.py:7-34 [yaml_import(fname, check, check_only)]: the lines printed, and the answer.
    [check_only] is not read (the lines that did are commented out, 27-28). *)
Definition yaml_import (fname : string) (check check_only : bool) : list string * res M :=
  match read_file_or_url open_url open_file fname with
  | Err e => ([], Err e)
  | Ok txt =>
      match compose txt with
      | Err e =>
          ([("Error while parsing YAML file. Probable YAML syntax error in file :  " ++ fname)%string], Err e)
      | Ok TopOther => ([], Err ExcType)
      | Ok (TopMapping d) =>
          ([], build (dset d "filename" (if wraps then Scalar fname else PyString fname)) check)
      end
  end.

(** What [.value] gives: a text or a list of nodes. *)
Inductive value : Type := VText (s : string) | VNodes (n : N).

Definition value_of (i : item N) : option value :=
  match i with Scalar s => Some (VText s) | Collection n => Some (VNodes n) | PyString _ => None end.

(** model.py:254-266 [name], [filename]: any exception gives the default. *)
Definition read_entry (d : dict (item N)) (key default : string) : value :=
  match dget d key with
  | None => VText default
  | Some i => match value_of i with Some v => v | None => VText default end
  end.
Definition model_name (d : dict (item N)) : value := read_entry d "name" "Anonymous".
Definition model_filename (d : dict (item N)) : value := read_entry d "filename" "<string>".

(** model.py:268-275 [infos] *)
Definition infos (d : dict (item N)) : dict value :=
  [("name", model_name d); ("filename", model_filename d); ("type", VText "dtcc")].

(** model.py:277-279 [options] *)
Definition model_options (d : dict (item N)) : res (item N) :=
  match dget d "options" with Some i => Ok i | None => Err ExcKey end.
End Import.
Arguments value : clear implicits.

(** model.py:544-551: the checks of [__init__] that concern the sections of the file, in order: calibration,
    domain, exogenous (those on symbols, definitions and functions are in ModelCaches.v). *)
Definition checked_object {E Sol View X Dom Sec}
    (compute_calibration : option (dict E) -> res Sol) (wrap : Sol -> res View)
    (compute_exogenous : option (dict E) -> res X)
    (compute_domain : option (dict E) -> Sec -> Sec * res (option Dom))
    (lines : option (dict E)) (sec : Sec) (check : bool) : res (object E View X Dom Sec) :=
  let o := new_object lines sec in
  if check then
    match read_calibration compute_calibration wrap o with
    | (_, Err e) => Err e
    | (o1, Ok _) =>
        match read_domain compute_domain o1 with
        | (_, Err e) => Err e
        | (o2, Ok _) =>
            match read_exogenous compute_exogenous o2 with
            | (_, Err e) => Err e
            | (o3, Ok _) => Ok o3
            end
        end
    end
  else Ok o.
