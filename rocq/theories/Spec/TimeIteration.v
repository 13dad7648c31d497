(** What one update of time iteration is. *)
From Coq Require Import Reals List Arith.
From Verif.Base Require Import Prelude Ext.
From Verif.Spec Require Import Euler.
From Verif.Model Require Import TimeIteration.
Import ListNotations.
Open Scope R_scope.

Section Update.
  Variable g : list R -> list R -> list R -> list R -> list R.
  Variable f : list R -> list R -> list R -> list R -> list R -> list R -> nat -> R.
  Variable exo : dexo.
  Variable s : list (list R).
  Variable n_x : nat.
  Variable interpolate : tensor -> nat -> nat -> list R -> list R.
  Variable lsolve : (nat -> nat -> R) -> (nat -> R) -> res (nat -> R).
  Variable nan : R.
  Notation N := (length s).

  (** Bounds written as one long vector. *)
  Definition flat_ext (b : tensor_ext) (q : nat) : ext := b (q / n_x / N)%nat ((q / n_x) mod N)%nat (q mod n_x)%nat.
  Definition flat_bounds (bounds : option (tensor_ext * tensor_ext)) : option ((nat -> ext) * (nat -> ext)) :=
    match bounds with Some (l, u) => Some (flat_ext l, flat_ext u) | None => None end.

  (** The inner solver, started at the controls [p] and with the future rule given by [p], stops after
      [nit] iterations with the controls [c]. *)
  Definition ti_update (inner_maxit : nat) (bounds : option (tensor_ext * tensor_ext)) (nit : nat) (p c : tensor) : Prop :=
    exists v cv, ti_inner g f exo s n_x interpolate lsolve nan inner_maxit (flat_bounds bounds) (flatten N n_x p)
                 = Ok (v, nit, cv) /\ c = unflatten N n_x v.

  (** An update that moved some control by more than [tol]. *)
  Definition big_update (inner_maxit : nat) bounds (tol : R) (a b : tensor) : Prop :=
    (exists nit, ti_update inner_maxit bounds nit a b) /\
    exists e, distance_is (ex_n exo) N n_x b a e /\ tol < e.
End Update.

(** The interpolated rule only depends on the values at the nodes. *)
Definition interpolates_values (exo : dexo) (N n_x : nat) (interpolate : tensor -> nat -> nat -> list R -> list R) : Prop :=
  forall x y,
    (forall i n k, (i < ex_n exo)%nat -> (n < N)%nat -> (k < n_x)%nat -> x i n k = y i n k) ->
    forall i j p, (i < ex_n exo)%nat -> (j < Processes.dp_n (ex_dp exo) i)%nat -> interpolate x i j p = interpolate y i j p.
