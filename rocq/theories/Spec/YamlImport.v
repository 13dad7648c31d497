(** Vocabulary for C155: importing a model file. *)
From Coq Require Import String List.
From Verif Require Import Base.Prelude Base.Dict Model.ModelObject Model.YamlImport.
Import ListNotations.
Open Scope string_scope.

(** The characters "http" appear somewhere in the name. *)
Definition mentions_http (fname : string) : Prop := exists a b, fname = a ++ "http" ++ b.

(** The text that a name stands for: what is downloaded when it mentions http, a local file otherwise. *)
Definition source (open_url open_file : string -> res string) (fname : string) (r : res string) : Prop :=
  (mentions_http fname /\ open_url fname = r) \/ (~ mentions_http fname /\ open_file fname = r).

(** Reads of the attributes of a model. *)
Definition reading {E} (a : action E) : Prop :=
  match a with ACalibration => True | AExogenous => True | ADomain => True | _ => False end.

(** What a user sees who reads an attribute whose value is known. *)
Definition shows {E View X Dom} (c : View) (x : X) (d : option Dom) (a : action E) : seen View X Dom :=
  match a with
  | ACalibration => SCalibration (Ok c)
  | AExogenous => SExogenous (Ok x)
  | ADomain => SDomain (Ok d)
  | _ => SNone (Ok tt)
  end.
