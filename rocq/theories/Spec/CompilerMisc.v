(** What a symbol table and a calibration mean to a user. *)
From Coq Require Import String List.
From Verif Require Import Base.Prelude Base.Dict Model.CompilerMisc.
Import ListNotations.

(** The [i]-th symbol of group [g] is [s]. *)
Definition declared (symbols : dict (list string)) (g : string) (i : nat) (s : string) : Prop :=
  exists syms, dget symbols g = Some syms /\ nth_error syms i = Some s.

(** No symbol is declared twice, in one group or in two. *)
Definition distinct_symbols (symbols : dict (list string)) : Prop :=
  forall g i g' i' s, declared symbols g i s -> declared symbols g' i' s -> g = g' /\ i = i'.

(** [calib] gives one vector for each group, with one number per symbol. *)
Definition calibrates {V} (symbols : dict (list string)) (calib : dict (list V)) : Prop :=
  NoDup (dkeys symbols) /\ NoDup (dkeys calib) /\
  (forall g, In g (dkeys symbols) <-> In g (dkeys calib)) /\
  (forall g syms v, dget symbols g = Some syms -> dget calib g = Some v ->
     length v = length syms).

(** The table names no group like an alternative name ('actions'), and no group
    is called 'covariances'. *)
Definition plain_groups (symbols : dict (list string)) (equivs : dict string) : Prop :=
  ~ In "covariances"%string (dkeys symbols) /\
  (forall a, In a (dkeys equivs) -> ~ In a (dkeys symbols)).

(** Histories of assignments and deletions on a LoosyDict. *)
Section LoosyHistory.
Context {V : Type}.

Inductive lop : Type := LSet (k : string) (v : V) | LDel (k : string).

(** A run of assignments and deletions; a failed deletion leaves the dictionary
    as it was (the caller may catch the KeyError). *)
Definition lstep (d : loosy V) (o : lop) : loosy V :=
  match o with
  | LSet k v => loosy_setitem d k v
  | LDel k => match loosy_delitem d k with Ok d' => d' | Err _ => d end
  end.

Definition lrun (d : loosy V) (h : list lop) : loosy V := fold_left lstep h d.

(** What the history leaves under the key [k]. *)
Definition effect (k : string) (o : lop) (before : option V) : option V :=
  match o with
  | LSet k' v => if String.eqb k k' then Some v else before
  | LDel k' => if String.eqb k k' then None else before
  end.

Definition left_under (k : string) (start : option V) (h : list lop) : option V :=
  fold_left (fun b o => effect k o b) h start.
End LoosyHistory.
