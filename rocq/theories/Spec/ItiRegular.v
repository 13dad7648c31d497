(** Vocabulary for the convergence of improved time iteration. *)
From Coq Require Import Reals List Arith.
From Verif.Base Require Import Prelude Ext.
From Verif.Spec Require Import LinearAlgebra Euler NewtonStep ImprovedTimeIteration.
From Verif.Model Require Import Processes TimeIteration ImprovedTimeIteration.
Import ListNotations.
Open Scope R_scope.

Section Regular.
  Variable g : list R -> list R -> list R -> list R -> list R.
  Variable f : list R -> list R -> list R -> list R -> list R -> list R -> nat -> R.
  Variable exo : dexo.
  Variable s : list (list R).
  Variable n_x : nat.
  Variable interpolate : tensor -> nat -> nat -> list R -> list R.
  Variable lb ub : tensor_ext.
  Variable compl : bool.
  Variable nan : R.
  Notation n_m := (Nat.max (ex_n exo) 1).
  Notation N := (length s).
  Notation n_im := (dp_n (ex_dp exo) 0).

  (** Largest difference between two rules at the nodes. *)
  Definition tdist (x y : tensor) : R := tnorm n_m N n_x (fun i n k => x i n k - y i n k).

  (** Control l of the rule with values p. *)
  Definition control_of (p : tensor) (i j : nat) (S : list R) (l : nat) : R := nth l (interpolate p i j S) 0.

  (** The numerical derivatives of the residual at [x] (with respect to today's and to tomorrow's controls), as a linear map of
      a change of the rule. *)
  Definition today (x p : tensor) (i n k : nat) : R :=
    present_effect n_x (iti_dres_c g f exo s n_x interpolate lb ub compl nan x) p i n k.
  Definition tomorrow (x p : tensor) (i n k : nat) : R :=
    future_effect n_im n_x control_of (iti_jres_c g f exo s n_x interpolate lb ub compl nan x)
      (fun i j n => nth n (next_states g exo s n_x x i j) []) p i n k.
  Definition everywhere (P : nat -> nat -> nat -> Prop) : Prop :=
    forall i n k, (i < n_m)%nat -> (n < N)%nat -> (k < n_x)%nat -> P i n k.

  (** Within distance [r] of the rule [xs]: today's derivatives are regular; the change [q] of today's controls which makes up
      for a change [p] of tomorrow's is smaller by the factor [lam] (time iteration contracts); the first-order expansion of the
      residual towards [xs] is exact up to the relative error [delta] plus [L] times the distance (in units of today's
      controls); residuals are at most [M] times the distance. *)
  Definition regular_equilibrium (xs : tensor) (r lam delta L M : R) : Prop :=
    forall x, tdist x xs <= r ->
      (forall i n, (i < n_m)%nat -> (n < N)%nat -> ~ singular n_x (iti_dres_c g f exo s n_x interpolate lb ub compl nan x i n)) /\
      (forall p q, everywhere (fun i n k => today x q i n k + tomorrow x p i n k = 0) -> tnorm n_m N n_x q <= lam * tnorm n_m N n_x p) /\
      (forall q, let z := fun i n k => x i n k - xs i n k in
         everywhere (fun i n k => today x q i n k = iti_res g f exo s n_x interpolate lb ub compl nan x i n k - (today x z i n k + tomorrow x z i n k)) ->
         tnorm n_m N n_x q <= (1 - lam) * (delta + L * tdist x xs) * tdist x xs) /\
      error_at g f exo s n_x interpolate lb ub compl nan x <= M * tdist x xs.
End Regular.
