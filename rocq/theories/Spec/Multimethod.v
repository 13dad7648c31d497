(** Vocabulary for C57: what dispatch should be. *)
From Coq Require Import List Arith Bool.
From Verif.Base Require Import Prelude.
From Verif.Model Require Import Multimethod.
Import ListNotations.

Section S.
  Variable cls : Type.
  Variable cls_eqb : cls -> cls -> bool.
  Variable sub : cls -> cls -> bool.
  Variable mro : cls -> list cls.

  (** A class hierarchy: equality is decidable, issubclass is an order. *)
  Definition hierarchy : Prop :=
    (forall a b, cls_eqb a b = true <-> a = b) /\ (forall a, sub a a = true) /\
    (forall a b c, sub a b = true -> sub b c = true -> sub a c = true) /\
    (forall a b, sub a b = true -> sub b a = true -> a = b).
  (** Ordinary classes: superclasses are those of the resolution order, and subclasses come first in it. *)
  Definition ordinary : Prop :=
    (forall t a, sub t a = true -> In a (mro t)) /\
    (forall t a b, In a (mro t) -> In b (mro t) -> sub a b = true -> a <> b -> (index cls cls_eqb a (mro t) < index cls cls_eqb b (mro t))%nat).

  (** The function registered for a signature after a history: the last event about it decides. *)
  Fixpoint live (evs : list (event cls)) (s : list cls) (now : option nat) : option nat :=
    match evs with
    | [] => now
    | Register _ s' f :: r => live r s (if sig_eqb cls cls_eqb s s' then Some f else now)
    | Delete _ s' :: r => live r s (if sig_eqb cls cls_eqb s s' then None else now)
    | Call _ _ :: r => live r s now
    end.
  Definition registered (evs : list (event cls)) (s : list cls) (f : nat) : Prop := live evs s None = Some f.

  (** A signature accepts argument types: each of its classes has the corresponding type as subclass. *)
  Definition accepts (s types : list cls) : Prop :=
    (length s <= length types)%nat /\
    forall i a b, nth_error s i = Some a -> nth_error types i = Some b -> sub b a = true.

  (** The most specific of the accepting signatures. *)
  Definition most_specific (evs : list (event cls)) (types s : list cls) (f : nat) : Prop :=
    registered evs s f /\ accepts s types /\
    forall s' f', registered evs s' f' -> accepts s' types -> accepts s' s.

  (** Histories without deletions in which no signature is registered after a more specific one. *)
  Fixpoint general_first (evs : list (event cls)) (seen : list (list cls)) : Prop :=
    match evs with
    | [] => True
    | Register _ s f :: r => (forall s', In s' seen -> accepts s s' -> s = s') /\ general_first r (s :: seen)
    | Delete _ s :: r => False
    | Call _ _ :: r => general_first r seen
    end.
End S.
