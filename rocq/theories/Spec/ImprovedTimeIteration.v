(** One pass of improved time iteration. *)
From Coq Require Import Reals List Arith.
From Verif.Base Require Import Prelude Ext.
From Verif.Spec Require Import Euler.
From Verif.Model Require Import TimeIteration ImprovedTimeIteration.
Import ListNotations.
Open Scope R_scope.

Section Pass.
  Variable g : list R -> list R -> list R -> list R -> list R.
  Variable f : list R -> list R -> list R -> list R -> list R -> list R -> nat -> R.
  Variable exo : dexo.
  Variable s : list (list R).
  Variable n_x : nat.
  Variable interpolate : tensor -> nat -> nat -> list R -> list R.
  Variable lb ub : tensor_ext.
  Variable compl : bool.
  Variable nan : R.

  (** Largest residual when the controls and the future rule are both x. *)
  Definition error_at (x : tensor) : R :=
    tnorm (Nat.max (ex_n exo) 1) (length s) n_x (iti_res g f exo s n_x interpolate lb ub compl nan x).

  (** From [x] to [y] by the Newton step cut [b] times in half: either the error decreased, or the
      last cut allowed was reached; no smaller number of cuts would have decreased the error. *)
  Definition pass (tol : R) (maxb smaxit : nat) (x y : tensor) : Prop :=
    exists tot nn b,
      iti_step g f exo s n_x interpolate lb ub compl nan tol smaxit x = Ok (tot, nn) /\ (b < maxb)%nat /\
      (forall i n k, y i n k = x i n k - tot i n k * (/ 2) ^ b) /\
      (error_at y < error_at x \/ b = (maxb - 1)%nat) /\
      (forall c, (c < b)%nat -> error_at x <= error_at (fun i n k => x i n k - tot i n k * (/ 2) ^ c)).
End Pass.
