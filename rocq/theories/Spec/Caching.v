(** Vocabulary for statements on caches: equality of Python values. *)
From Coq Require Import String Reals List ZArith Bool.
From Verif.Base Require Import Prelude.
From Verif.Model Require Import Caching.
Import ListNotations.

Definition num_of (v : pyval) : option R :=
  match v with
  | VBool true => Some 1%R
  | VBool false => Some 0%R
  | VInt z => Some (IZR z)
  | VFloat r => Some r
  | _ => None
  end.

(** [a == b] in Python (entry by entry for arrays).  Dictionaries and frozensets are equal in any order. *)
Inductive same : pyval -> pyval -> Prop :=
| same_none : same VNone VNone
| same_num : forall a b r, num_of a = Some r -> num_of b = Some r -> same a b
| same_str : forall s, same (VStr s) (VStr s)
| same_tuple : forall l l', same_seq l l' -> same (VTuple l) (VTuple l')
| same_list : forall l l', same_seq l l' -> same (VList l) (VList l')
| same_dict : forall l l', same_items l l' -> same (VDict l) (VDict l')
| same_frozen : forall l l', same_bag l l' -> same (VFrozen l) (VFrozen l')
| same_array : forall sh data, same (VArray sh data) (VArray sh data)
| same_obj : forall i, same (VObj i) (VObj i)
| same_opaque : forall i, same (VOpaque i) (VOpaque i)
| same_error : forall i, same (VTypeErr i) (VTypeErr i)
with same_seq : list pyval -> list pyval -> Prop :=
| seq_nil : same_seq [] []
| seq_cons : forall x y l l', same x y -> same_seq l l' -> same_seq (x :: l) (y :: l')
with same_bag : list pyval -> list pyval -> Prop :=
| bag_nil : same_bag [] []
| bag_cons : forall x y l l1 l2, same x y -> same_bag l (l1 ++ l2) -> same_bag (x :: l) (l1 ++ y :: l2)
with same_items : list (pyval * pyval) -> list (pyval * pyval) -> Prop :=
| items_nil : same_items [] []
| items_cons : forall k k' x x' l l1 l2, same k k' -> same x x' -> same_items l (l1 ++ l2) ->
    same_items ((k, x) :: l) (l1 ++ (k', x') :: l2).

(** Equal values have equal hashes. *)
Definition respects_equality (hash : pyval -> Z) : Prop :=
  forall a b, can_hash a = true -> same a b -> hash a = hash b.

(** No opaque object anywhere in the value. *)
Fixpoint no_opaque (v : pyval) : bool :=
  match v with
  | VTuple l | VList l | VFrozen l => forallb no_opaque l
  | VDict items => forallb (fun p => no_opaque (fst p) && no_opaque (snd p)) items
  | VOpaque _ => false
  | _ => true
  end.

(** Every dictionary key, and every tuple not inside a tuple, is hashable. *)
Fixpoint hashable_parts (v : pyval) : bool :=
  match v with
  | VTuple l => forallb can_hash l
  | VList l => forallb hashable_parts l
  | VDict items => forallb (fun p => can_hash (fst p) && hashable_parts (snd p)) items
  | _ => true
  end.

(** Two calls which share a key have the same result. *)
Definition no_clash {V} (hash : pyval -> Z) (f : call_args -> res V) (calls : list ((nat -> nat) * call_args)) : Prop :=
  forall c1 c2 h, In c1 calls -> In c2 calls ->
    cache_key hash (fst c1) (snd c1) = Ok h -> cache_key hash (fst c2) (snd c2) = Ok h -> f (snd c1) = f (snd c2).

(** Arguments made of integers, strings, None and tuples of these. *)
Fixpoint plain (v : pyval) : bool :=
  match v with
  | VNone | VInt _ | VStr _ => true
  | VTuple l => forallb plain l
  | _ => false
  end.
