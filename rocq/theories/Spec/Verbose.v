(** What the log of a verbose run should say. *)
From Coq Require Import String List ZArith Reals Arith.
From Verif.Base Require Import Prelude Norms.
From Verif.Model Require Import Newton Verbose.
Import ListNotations.
Open Scope nat_scope.

(** The columns of a table are known: distinct names, and every type is [int] or [float]. *)
Definition plain_columns (cols : list (string * col_type)) : Prop :=
  cols <> [] /\ NoDup (map fst cols) /\ forall e, In e cols -> snd e <> TyOther.

(** Characters reserved for the values of a column. *)
Definition col_width (e : string * col_type) : nat :=
  match snd e with TyInt => Nat.max 4 (String.length (fst e)) | _ => 9 end.

(** Where column [k] starts: after the left bar, and three characters between columns. *)
Definition col_start (cols : list (string * col_type)) (k : nat) : nat :=
  2 + fold_right (fun e a => col_width e + 3 + a) 0 (firstn k cols).

(** The width of the table. *)
Definition table_width (cols : list (string * col_type)) : nat :=
  1 + fold_right (fun e a => col_width e + 3 + a) 0 cols.

(** Names which fit above their column. *)
Definition names_fit (cols : list (string * col_type)) : Prop :=
  forall e, In e cols -> String.length (fst e) <= col_width e.

Open Scope R_scope.

(** The steps (error, number of halvings) shown by the lines of a Newton log. *)
Definition step_lines (steps : list (R * nat)) : list newton_line :=
  map (fun k => let s := nth k steps (0, 0%nat) in Stepped (S k) (fst s) (snd s)) (seq 0 (length steps)).

(** [steps] tells truly how the errors went, from the error [e0] of the starting point: no step is taken from a
    point which is precise enough; a step is halved at most 29 times; and unless it has been, it lowers the
    error. *)
Definition true_steps (tol e0 : R) (steps : list (R * nat)) : Prop :=
  forall k, (k < length steps)%nat ->
    let before := nth k (e0 :: map fst steps) 0 in
    let after := fst (nth k steps (0, 0%nat)) in
    let halvings := snd (nth k steps (0, 0%nat)) in
    tol <= before /\ (halvings <= 29)%nat /\ ((halvings < 29)%nat -> after < before).

(** The rows of time_iteration, numbered from 1, with the ratio of each error to the preceding one. *)
Definition true_rows (tol : R) (rows : list ti_row) : Prop :=
  forall k, (k < length rows)%nat ->
    let row j := nth j rows (TiRow 0 0 None 0) in
    tr_n (row k) = S k /\
    ((S k < length rows)%nat -> tol < tr_error (row k)) /\
    match k with
    | O => tr_gain (row k) = None
    | S j => tr_error (row j) <> 0 -> tr_gain (row k) = Some (tr_error (row k) / tr_error (row j))
    end.

(** The text of a value in a column. *)
Definition cell_text {F} (sci repr : F -> string) (sci_int : Z -> string) (e : string * col_type) (v : cell F) : string :=
  match snd e, v with
  | TyInt, CInt z => int_str z
  | TyInt, CFloat x => repr x
  | _, CInt z => sci_int z
  | _, CFloat x => sci x
  end.
