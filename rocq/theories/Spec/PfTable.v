(** Reading a table by names. *)
From Coq Require Import String Reals List ZArith.
From Verif.Base Require Import Prelude.
From Verif.Model Require Import PfTable.
Import ListNotations.
Open Scope R_scope.

(** The row labelled [date] has the value [x] in a column named [name], and there is one such row and column. *)
Definition shows (tb : table) (date : Z) (name : string) (x : R) : Prop :=
  exists t k, nth_error (tb_index tb) t = Some date /\ nth_error (tb_columns tb) k = Some name /\ tb_cell tb t k = x /\
    (forall t', nth_error (tb_index tb) t' = Some date -> t' = t) /\
    (forall k', nth_error (tb_columns tb) k' = Some name -> k' = k).
