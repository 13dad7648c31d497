(** C155: importing a model file. *)
From Coq Require Import String List Bool.
From Verif Require Import Base.Prelude Base.Dict Proofs.YamlImportProofs Model.CompilerMisc Model.ModelObject
  Model.YamlImport Spec.YamlImport.
Import ListNotations.
Open Scope string_scope.
Open Scope list_scope.

(** yaml_import returns a model exactly if the text can be read, composes to a mapping, and the mapping, with
    the name of the file written under 'filename' and nothing else changed, makes a model; it then prints
    nothing. *)
Theorem C155_import :
  forall (N M : Type) open_url open_file (compose : string -> res (composed N)) wraps
         (build : dict (item N) -> bool -> res M) fname check check_only m out,
    yaml_import open_url open_file compose wraps build fname check check_only = (out, Ok m) <->
    out = [] /\ exists txt d d',
      source open_url open_file fname (Ok txt) /\ compose txt = Ok (TopMapping d) /\
      (forall k, k <> "filename" -> dget d' k = dget d k) /\
      dget d' "filename" = Some (if wraps then Scalar fname else PyString fname) /\
      d' = dset d "filename" (if wraps then Scalar fname else PyString fname) /\
      build d' check = Ok m.
Proof. exact @import_iff. Qed.
Print Assumptions C155_import.

(** It prints a line exactly if the text was read and is not YAML, and then raises the parser's exception; an
    exception of the reading is raised as it is. *)
Theorem C155_messages :
  forall (N M : Type) open_url open_file (compose : string -> res (composed N)) wraps
         (build : dict (item N) -> bool -> res M) fname check check_only,
    let r := yaml_import open_url open_file compose wraps build fname check check_only in
    (fst r <> [] <-> exists txt, source open_url open_file fname (Ok txt) /\ is_err (compose txt)) /\
    (forall txt e, source open_url open_file fname (Ok txt) -> compose txt = Err e -> snd r = Err e) /\
    (forall e, source open_url open_file fname (Err e) -> r = ([], Err e)).
Proof. exact @import_prints. Qed.
Print Assumptions C155_messages.

(** With check=True, a returned model can be read: whatever is read later, in whatever order and however often,
    nothing raises, and the answers are those computed from the file. [live]: see C64. *)
Theorem C155_checked :
  forall (E V B P : Type) (zero_expr nan_expr : E) (nan : V) (literal : V -> E)
         (solve : dict E -> res (dict V)) (symbols : loosy (list string)) (defs : dict E)
         (eval_bound : dict V -> B -> res V) live grid (eval_exogenous : option (dict V -> res (exo_section P)))
         (lines : option (dict E)) (sec : option (section B V)) o,
    let calibration := file_calibration zero_expr nan_expr solve symbols defs in
    let wrap := file_wrap nan literal solve symbols in
    let exogenous := file_exogenous zero_expr nan_expr solve symbols defs eval_exogenous in
    let domain := file_domain zero_expr nan_expr solve symbols defs eval_bound live grid in
    checked_object calibration wrap exogenous domain lines sec true = Ok o ->
    exists c x d, bind (calibration lines) wrap = Ok c /\ exogenous lines = Ok x /\ snd (domain lines sec) = Ok d /\
      forall h, Forall reading h -> history calibration wrap exogenous domain o h = map (shows c x d) h.
Proof. exact @file_checked_reads. Qed.
Print Assumptions C155_checked.

(** It is returned exactly if the calibration, the domain and the exogenous processes of the file can be
    computed. *)
Theorem C155_accepted :
  forall (E Sol View X Dom Sec : Type) calibration (wrap : Sol -> res View) (exogenous : option (dict E) -> res X)
         (domain : option (dict E) -> Sec -> Sec * res (option Dom)) lines sec,
    (exists o, checked_object calibration wrap exogenous domain lines sec true = Ok o) <->
    (exists c, bind (calibration lines) wrap = Ok c) /\ (exists d, snd (domain lines sec) = Ok d) /\
    (exists x, exogenous lines = Ok x).
Proof. exact @checked_iff. Qed.
Print Assumptions C155_accepted.

(** A file with a state k, whose domain comes from 'beta', and a parameter: accepted, then read. *)
Definition sample_symbols : loosy (list string) :=
  Loosy [("states", ["k"]); ("controls", ["i"]); ("exogenous", ["z"]); ("parameters", ["beta"])] equivalent_symbols.
Definition sample_import (sec : option (section string nat)) (check : bool) :=
  checked_object (file_calibration 0 99 (fun d : dict nat => Ok d) sample_symbols [])
    (file_wrap 99 (fun v : nat => v) (fun d : dict nat => Ok d) sample_symbols)
    (file_exogenous 0 99 (fun d : dict nat => Ok d) sample_symbols []
       (Some (fun sol => Ok (ExoDict [("z", dget sol "beta")]))))
    (file_domain 0 99 (fun d : dict nat => Ok d) sample_symbols []
       (fun sol b => match dget sol b with Some v => Ok v | None => Err ExcName end) false (None, None))
    (Some [("beta", 3); ("k", 5)]) sec check.
Definition succeeds {A} (r : res A) : bool := match r with Ok _ => true | Err _ => false end.
Example C155_sample :
  succeeds (sample_import (Some [("k", (BNum 0, BExpr "beta"))]) true) = true /\
  succeeds (sample_import None true) = true /\
  succeeds (sample_import (Some [("k", (BNum 0, BExpr "alpha"))]) true) = false.
Proof. repeat split. Qed.

(** Without the checks a model is returned for every file, also when nothing can be read of it: the last file
    above is accepted, and its domain raises. *)
Theorem C155_unchecked_refuted :
  exists o, sample_import (Some [("k", (BNum 0, BExpr "alpha"))]) false = Ok o /\
    snd (read_domain (file_domain 0 99 (fun d : dict nat => Ok d) sample_symbols []
       (fun sol b => match dget sol b with Some v => Ok v | None => Err ExcName end) false (None, None)) o)
    = Err ExcName.
Proof. eexists; split; reflexivity. Qed.
Print Assumptions C155_unchecked_refuted.

(** The option check_only is not read: the model is returned all the same. *)
Theorem C155_check_only_refuted :
  forall (N M : Type) open_url open_file (compose : string -> res (composed N)) wraps
         (build : dict (item N) -> bool -> res M) fname check,
    yaml_import open_url open_file compose wraps build fname check true
    = yaml_import open_url open_file compose wraps build fname check false.
Proof. reflexivity. Qed.
Print Assumptions C155_check_only_refuted.

(** A local file whose path contains "http" is never read. *)
Theorem C155_http_path_refuted :
  forall (N M : Type) open_url (compose : string -> res (composed N)) wraps
         (build : dict (item N) -> bool -> res M) open_file open_file' fname check check_only,
    mentions_http fname ->
    yaml_import open_url open_file compose wraps build fname check check_only
    = yaml_import open_url open_file' compose wraps build fname check check_only.
Proof. exact @http_only. Qed.
Print Assumptions C155_http_path_refuted.
Example C155_http_path_example :
  mentions_http "models/http_demand.yaml" /\
  yaml_import (fun _ => Err ExcValue) (fun _ => Ok "name: x") (fun _ => Ok (TopMapping [])) true
    (fun (d : dict (item unit)) (_ : bool) => Ok d) "models/http_demand.yaml" true false = ([], Err ExcValue) /\
  yaml_import (fun _ => Err ExcValue) (fun _ => Ok "name: x") (fun _ => Ok (TopMapping [])) true
    (fun (d : dict (item unit)) (_ : bool) => Ok d) "models/demand.yaml" true false
  = ([], Ok [("filename", Scalar "models/demand.yaml")]).
Proof. split; [exists "models/", "_demand.yaml"; reflexivity|]. split; reflexivity. Qed.

(** What the imported model says of itself: the name written in the file, the name of the file that was asked
    for (not an entry 'filename' of the file), and the type 'dtcc', whatever the file says. *)
Theorem C155_infos :
  forall (N : Type) (d : dict (item N)) fname text,
    dget d "name" = Some (Scalar text) ->
    infos (dset d "filename" (Scalar fname))
    = [("name", VText text); ("filename", VText fname); ("type", VText "dtcc")].
Proof. exact @infos_of. Qed.
Print Assumptions C155_infos.

(** Without a name it is called Anonymous; and if the mapping keeps the Python string as it is, the file is
    called <string>, whatever its name. *)
Theorem C155_infos_defaults :
  forall (N : Type) (d : dict (item N)) fname,
    dget d "name" = None ->
    infos (dset d "filename" (PyString fname))
    = [("name", VText "Anonymous"); ("filename", VText "<string>"); ("type", VText "dtcc")].
Proof. exact @infos_defaults. Qed.
Print Assumptions C155_infos_defaults.

(** A name which is a list in the file is not a text. *)
Theorem C155_name_refuted :
  forall (N : Type) (n : N) (d : dict (item N)),
    dget d "name" = Some (Collection n) -> forall s, model_name d <> VText s.
Proof. exact @name_nodes. Qed.
Print Assumptions C155_name_refuted.
