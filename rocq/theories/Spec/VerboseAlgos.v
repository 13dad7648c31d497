(** Vocabulary for C156: the lines that the algorithms should print. *)
From Coq Require Import Reals List.
From Verif.Model Require Import VerboseAlgos.
Import ListNotations.
Open Scope R_scope.

(** The ratio of an error to the preceding one; none at the first row, or when the preceding error is zero. *)
Definition ratio (before : option R) (now : R) : option R :=
  match before with
  | None => None
  | Some b => if Req_EM_T b 0 then None else Some (now / b)
  end.

(** The rows of evaluate_policy for a list of errors, numbered from [S k]. *)
Fixpoint error_rows (k : nat) (before : option R) (errs : list R) : list ep_row :=
  match errs with
  | [] => []
  | e :: r => EpRow (S k) e (ratio before e) :: error_rows (S k) (Some e) r
  end.

(** One pass of value_iteration: the changes of values and of controls, and the number of evaluation steps. *)
Record pass : Type := Pass { p_v : R; p_x : R; p_eval : nat }.

Fixpoint pass_rows (k : nat) (before_v before_x : option R) (ps : list pass) : list vi_row :=
  match ps with
  | [] => []
  | p :: r =>
      ViRow (S k) (p_v p) (ratio before_v (p_v p)) (p_x p) (ratio before_x (p_x p)) (p_eval p)
        :: pass_rows (S k) (Some (p_v p)) (Some (p_x p)) r
  end.

(** The table of egm: one row per iteration, numbered from zero. *)
Definition rows_only (lines : list egm_line) : list (nat * R) :=
  concat (map (fun l => match l with Row it e => [(it, e)] | Bare _ _ _ => [] end) lines).

(** The bare lines of egm, and the triples (iteration, node, integration node) of the first [n] iterations, in order. *)
Definition bare_only (lines : list egm_line) : list (nat * nat * nat) :=
  concat (map (fun l => match l with Bare it i j => [(it, i, j)] | Row _ _ => [] end) lines).
Definition visits (nodes : nat) (inodes : nat -> nat) (first n : nat) : list (nat * nat * nat) :=
  concat (map (fun it => concat (map (fun i => map (fun j => (it, i, j)) (seq 0 (inodes i))) (seq 0 nodes))) (seq first n)).
