(** Tuples of indices, their C-order rank, and enumerations of a product set. *)
From Coq Require Import Reals List Arith Lia.
Import ListNotations.

Fixpoint prodn (l : list nat) : nat :=
  match l with [] => 1 | d :: t => d * prodn t end.

(** [idx] is a tuple of indices for an array of shape [dims]. *)
Definition valid_index (dims idx : list nat) : Prop := Forall2 (fun i d => i < d) idx dims.

(** C-order rank: i_1*n_2*...*n_d + ... + i_d. *)
Fixpoint rank (dims idx : list nat) : nat :=
  match dims, idx with
  | _ :: ds, i :: is => i * prodn ds + rank ds is
  | _, _ => 0
  end.

(** The axes of a uniform grid: [n_k] points equally spaced from [min_k] to [max_k]. *)
Definition axis_of (lo hi : R) (n : nat) (axis : list R) : Prop :=
  length axis = n /\
  forall i, i < n -> 1 < n -> (nth i axis 0 = lo + INR i / INR (n - 1) * (hi - lo))%R.

(** [rows] (numbered from 0) enumerates the product of the lists [axes] in C order: the row
    of rank (i_1,...,i_d) is (axes_1[i_1], ..., axes_d[i_d]). *)
Definition enumerates {A} (dflt : A) (axes : list (list A)) (rows : nat -> nat -> A) : Prop :=
  forall idx, valid_index (map (@length A) axes) idx ->
    forall k, k < length axes ->
      rows (rank (map (@length A) axes) idx) k = nth (nth k idx 0) (nth k axes []) dflt.
