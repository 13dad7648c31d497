(** Calibrations as vectors and dictionaries: /repo/dolo/compiler/misc.py 5-87.
    Numbers are of an arbitrary type [V] (nothing is computed with them). *)
From Coq Require Import String List Bool Arith.
From Verif Require Import Base.Prelude Base.Dict.
Import ListNotations.
Open Scope string_scope.
Open Scope list_scope.

(** misc.py:44-60 [class LoosyDict(dict)]: the entries of the underlying
    dictionary and the attribute [__equivalences__]. *)
Record loosy (V : Type) : Type := Loosy {
  items : dict V;
  equivalences : dict string }.
Arguments Loosy {V}. Arguments items {V}. Arguments equivalences {V}.

(** misc.py:45-52 [__init__]: the keyword [equivalences] is taken off the
    entries, [None] when it is not given. *)
Definition loosy_init {V} (kwargs : dict V) (equivs : option (dict string)) : loosy V :=
  Loosy kwargs (match equivs with Some e => e | None => [] end).

(** misc.py:54-60 [__getitem__] *)
Definition loosy_getitem {V} (d : loosy V) (p : string) : res V :=
  let k := match dget (equivalences d) p with Some k => k | None => p end in
  match dget (items d) k with Some v => Ok v | None => Err ExcKey end.

(** The methods that the class inherits from [dict] unchanged:
    [d[k] = v], [del d[k]], [k in d] and [d.get(k)]. *)
Definition loosy_setitem {V} (d : loosy V) (p : string) (v : V) : loosy V :=
  Loosy (dset (items d) p v) (equivalences d).

Definition loosy_delitem {V} (d : loosy V) (p : string) : res (loosy V) :=
  if dmem (items d) p then Ok (Loosy (ddel (items d) p) (equivalences d)) else Err ExcKey.

Definition loosy_contains {V} (d : loosy V) (p : string) : bool := dmem (items d) p.

Definition loosy_get {V} (d : loosy V) (p : string) : option V := dget (items d) p.

(** misc.py:41 *)
Definition equivalent_symbols : dict string := [("actions", "controls")].

(** misc.py:5-18 [calibration_to_vector]. [solve_triangular_system] is dolang's
    (external): a parameter. [symbols] may be a plain dictionary (no
    equivalences) or a LoosyDict. *)
Section ToVector.
Context {E V : Type}.
Variable solve_triangular_system : dict E -> res (dict V).
Variable nan : V.

Definition group_vector (sol : dict V) (syms : list string) : list V :=
  map (fun s => match dget sol s with Some v => v | None => nan end) syms.

Fixpoint vectors (symbols : loosy (list string)) (sol : dict V) (groups : list string)
    (acc : dict (list V)) : res (dict (list V)) :=
  match groups with
  | [] => Ok acc
  | g :: r =>
      bind (loosy_getitem symbols g) (fun syms =>
        vectors symbols sol r (dset acc g (group_vector sol syms)))
  end.

Definition calibration_to_vector (symbols : loosy (list string)) (c : dict E)
    : res (dict (list V)) :=
  bind (solve_triangular_system c) (fun sol =>
    vectors symbols sol (dkeys (items symbols)) []).
End ToVector.

(** misc.py:21-34 [calibration_to_dict] *)
Section ToDict.
Context {V : Type}.

Fixpoint assign_entries (syms : list string) (i : nat) (values : list V) (d : dict V)
    : res (dict V) :=
  match syms with
  | [] => Ok d
  | s :: r =>
      match nth_error values i with
      | None => Err ExcIndex
      | Some v => assign_entries r (S i) values (dset d s v)
      end
  end.

Fixpoint to_dict_loop (symbols : loosy (list string)) (calib : dict (list V)) (d : dict V)
    : res (dict V) :=
  match calib with
  | [] => Ok d
  | (group, values) :: r =>
      if String.eqb group "covariances" then to_dict_loop symbols r d
      else
        bind (loosy_getitem symbols group) (fun syms =>
          bind (assign_entries syms 0 values d) (fun d' =>
            to_dict_loop symbols r d'))
  end.

Definition calibration_to_dict (symbols : loosy (list string)) (calib : dict (list V))
    : res (dict V) := to_dict_loop symbols calib [].

(** misc.py:63-79 [class CalibrationDict] and its [__init__]. The deep copy and
    the write protection of the vectors are not modelled: a model value cannot
    be changed in place. *)
Record calibration_dict : Type := CD {
  cd_symbols : loosy (list string);
  cd_flat : dict V;
  cd_grouped : loosy (list V) }.

Definition calibration_dict_init (symbols : loosy (list string)) (calib : dict (list V))
    (equivs : dict string) : res calibration_dict :=
  bind (calibration_to_dict symbols calib) (fun flat =>
    Ok (CD symbols flat (loosy_init calib (Some equivs)))).

(** Keys: a string or a tuple of keys; answers: a vector, a number or a list of
    answers. *)
Inductive key : Type := KStr (s : string) | KTuple (ks : list key).
Inductive answer : Type := AVec (v : list V) | ANum (x : V) | AList (l : list answer).

(** misc.py:81-87 [__getitem__] *)
Fixpoint cd_getitem (c : calibration_dict) (p : key) : res answer :=
  match p with
  | KTuple ks =>
      bind ((fix go (l : list key) : res (list answer) :=
               match l with
               | [] => Ok []
               | e :: r => bind (cd_getitem c e) (fun a => bind (go r) (fun b => Ok (a :: b)))
               end) ks)
           (fun l => Ok (AList l))
  | KStr s =>
      if dmem (items (cd_symbols c)) s || dmem (equivalences (cd_grouped c)) s
      then bind (loosy_getitem (cd_grouped c) s) (fun v => Ok (AVec v))
      else match dget (cd_flat c) s with Some x => Ok (ANum x) | None => Err ExcKey end
  end.
End ToDict.
Arguments calibration_dict : clear implicits.
Arguments answer : clear implicits.
