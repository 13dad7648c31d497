(** Model of /repo/dolo/numeric/taylor_expansion.py. *)
From Coq Require Import String Reals List Arith Bool.
From Verif.Base Require Import Prelude Sums Nda.
From Verif.Model Require Import DecisionRule.
Import ListNotations.
Open Scope R_scope.

(** 5-24: expansion point, value there, coefficients of orders 1, 2, 3. *)
Record te : Type := TE { te_s : list R; te_x : list R; te_coefs : list nda }.

(** 6-24: at least the first-order coefficients (IndexError), at most the third. *)
Definition te_make (s x : list R) (coefs : list nda) : res te :=
  match length coefs with
  | O => Err ExcIndex
  | 1%nat | 2%nat | 3%nat => Ok (TE s x coefs)
  | _ => Err (ExcGeneric "Not implemented")
  end.

(** 26-35, for a list of nonnegative indices: rows of all coefficients. *)
Definition pick (ind : list nat) (c : nda) : res nda :=
  match shape c with
  | [] => Err ExcIndex
  | d :: sh =>
      if forallb (fun i => Nat.ltb i d) ind
      then Ok (Nda (length ind :: sh)
                 (fun idx => at_ c (nth (nth 0 idx 0%nat) ind 0%nat :: skipn 1 idx)))
      else Err ExcIndex
  end.
Definition te_getitem (t : te) (ind : list nat) : res te :=
  if forallb (fun i => Nat.ltb i (length (te_x t))) ind
  then bind (map_res (pick ind) (te_coefs t)) (fun cs =>
       te_make (te_s t) (map (fun i => nth i (te_x t) 0) ind) cs)
  else Err ExcIndex.

Section Loops.
  Variables (s0 x0 p : list R).
  Let SN := length p.
  Let ds (i : nat) := nth i p 0 - nth i s0 0.

  (** 58-66. *)
  Definition eval_te_order_1 (x1 : nda) : list R :=
    map (fun n => for_range SN (fun i out => out + at_ x1 [n; i] * ds i) (nth n x0 0)) (seq 0 (length x0)).

  (** 71-84. *)
  Definition eval_te_order_2 (x1 x2 : nda) : list R :=
    map (fun n => for_range SN (fun i out =>
      for_range SN (fun j out => out + at_ x2 [n; i; j] * ds i * ds j / 2)
                (out + at_ x1 [n; i] * ds i)) (nth n x0 0)) (seq 0 (length x0)).

  (** 87-108. *)
  Definition eval_te_order_3 (x1 x2 x3 : nda) : list R :=
    map (fun n => for_range SN (fun i out =>
      for_range SN (fun j out =>
        for_range SN (fun k out => out + at_ x3 [n; i; j; k] * ds i * ds j * ds k / 6)
                  (out + at_ x2 [n; i; j] * ds i * ds j / 2))
                (out + at_ x1 [n; i] * ds i)) (nth n x0 0)) (seq 0 (length x0)).
End Loops.

Definition shape_is (c : nda) (sh : list nat) : bool := if list_eq_dec Nat.eq_dec (shape c) sh then true else false.

(** 37-46 at one point.  The signatures of guvectorize (58, 71, 87) check all sizes; arrays with more
    axes than the signature are not modelled (refused here). *)
Definition te_eval1 (t : te) (p : list R) : res (list R) :=
  let S := length (te_s t) in
  let X := length (te_x t) in
  if negb (Nat.eqb (length p) S) then Err ExcValue
  else
    match te_coefs t with
    | [x1] => if shape_is x1 [X; S] then Ok (eval_te_order_1 (te_s t) (te_x t) p x1) else Err ExcValue
    | [x1; x2] =>
        if shape_is x1 [X; S] && shape_is x2 [X; S; S]
        then Ok (eval_te_order_2 (te_s t) (te_x t) p x1 x2) else Err ExcValue
    | [x1; x2; x3] =>
        if shape_is x1 [X; S] && shape_is x2 [X; S; S] && shape_is x3 [X; S; S; S]
        then Ok (eval_te_order_3 (te_s t) (te_x t) p x1 x2 x3) else Err ExcValue
    | _ => Err ExcValue
    end.

(** 37-46: guvectorize maps the rows of 2-d points. *)
Definition te_eval_s (t : te) (p : points) : res points :=
  match p with
  | P1 v => bind (te_eval1 t v) (fun o => Ok (P1 o))
  | P2 rows => bind (map_res (te_eval1 t) rows) (fun o => Ok (P2 o))
  end.

(** 48-50. *)
Definition te_eval_ms (t : te) (m s : points) : res points := te_eval_s t s.
