(** Words used in the statements about [deterministic_solve]: they speak about its arguments. *)
From Coq Require Import String Reals List Arith Bool.
From Verif.Base Require Import Prelude Ext.
From Verif.Model Require Import Complementarity PerfectForesight.
From Verif.Spec Require Import Complementarity PerfectForesight.
Import ListNotations.
Open Scope R_scope.

(** What the dict branch gives for column [i]. *)
Definition dict_meaning (names : list string) (cal : nat -> R) (d : list (string * list R)) (i : nat)
    (col : nat -> R) : Prop :=
  match dict_get (nth i names EmptyString) d with
  | Some l => follows_then_stays l col
  | None => forall t, col t = cal i
  end.

(** Column [i] of an array of rows of width [n], from row [first] on. *)
Definition column_from (n : nat) (a : list R) (k first i : nat) : list R :=
  map (fun r => nth (r * n + i) a 0) (seq first (k - first)).

(** The initial condition used: the state after one period from the given or steady state. *)
Definition start_of (md : pf_model) (a : pf_args) (eps : nat -> nat -> R) (s1 : vecR) : Prop :=
    if given (a_exogenous a)
    then exists s0 x0, pm_steady md (eps 0%nat) = Ok (s0, x0) /\ s1 = pm_g md (eps 0%nat) s0 x0 (eps 1%nat)
    else s1 = pm_g md (opt (a_m0 a) (pm_m md)) (opt (a_s0 a) (pm_s md)) (pm_x md) (eps 1%nat).

(** Dropping the steady-state row if it was kept. *)
Definition kept (a : pf_args) : nat := if given (a_exogenous a) && a_keep a then 1%nat else 0%nat.

(** No bounds to enforce. *)
Definition unconstrained (md : pf_model) (a : pf_args) : Prop := pm_bounds md = None \/ a_ignore a = true.

(** Bounds usable by the solver. *)
Definition regular_bounds (md : pf_model) (lbf ubf : vecR -> vecR -> nat -> ext) : Prop :=
    forall m s k, (k < pm_nx md)%nat ->
      lbf m s k <> PInf /\ ubf m s k <> MInf /\
      ext_le (lower_cut BIG (lbf m s k)) (upper_cut BIG (ubf m s k)).

