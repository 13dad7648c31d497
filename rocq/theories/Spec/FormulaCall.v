(** Ordinary names, and what the names of a formula mean. *)
From Coq Require Import String List ZArith.
From Verif.Base Require Import Dict.
From Verif.Model Require Import Factories.
From Verif.Spec Require Import Factories.
Open Scope string_scope.

(** A name that has no double underscore and does not end with an underscore. *)
Definition ordinary (k : string) : Prop := forall a b, k <> a ++ "__" ++ b /\ k <> a ++ "_".

(** Undated names are those of the context; nothing else has a value. *)
Definition in_context {V} (known : dict V) (x : sym) : option V :=
  match x with SPar s => dget known s | SVar _ _ => None end.

Definition ordinary_keys {A} (d : dict A) : Prop := forall k, In k (dkeys d) -> ordinary k.

(** A formula that reads a table: a dated variable, or t, the index of the table. *)
Definition reads_table {V} (e : expr V) : Prop := mentions e (SPar "t") \/ exists s t, mentions e (SVar s t).
