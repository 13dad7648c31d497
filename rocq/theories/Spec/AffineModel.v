(** Models whose equations are affine in today's and tomorrow's controls and whose states do not depend on controls. *)
From Coq Require Import Reals List Arith.
From Verif.Base Require Import Prelude Sums.
From Verif.Model Require Import NumDiff Processes TimeIteration ImprovedTimeIteration.
From Verif.Spec Require Import Euler ImprovedTimeIteration ItiRegular.
Import ListNotations.
Open Scope R_scope.

Section Affine.
  Variable n_x : nat.
  Variable next : list R -> list R -> list R -> list R.
  Variable a : list R -> list R -> list R -> nat -> R.
  Variables B C : list R -> list R -> list R -> nat -> nat -> R.
  (** Equation k: a + B x + C X, the coefficients depending on today's exogenous and endogenous states and on tomorrow's
      exogenous state. *)
  Definition affine_transition (m s x M : list R) : list R := next m s M.
  Definition affine_equation (m s x M S X : list R) (k : nat) : R :=
    a m s M k + rsum n_x (fun l => B m s M k l * nth l x 0) + rsum n_x (fun l => C m s M k l * nth l X 0).

  Variable exo : dexo.
  Variable s : list (list R).
  Variable interpolate : tensor -> nat -> nat -> list R -> list R.

  (** Expected effect, at node n of exogenous state i, of a change q of today's controls and p of the rule followed
      tomorrow. *)
  Definition expected_change (q p : tensor) (i n k : nat) : R :=
    let m := ex_node exo i in
    let w := dp_weight (ex_dp exo) i in
    let M := dp_node (ex_dp exo) i in
    let sn := nth n s [] in
    rsum (dp_n (ex_dp exo) 0) (fun j =>
      w j * (rsum n_x (fun l => B m sn (M j) k l * q i n l) +
             rsum n_x (fun l => C m sn (M j) k l * nth l (interpolate p i j (next m sn (M j))) 0))).

  (** Time iteration contracts by the factor [lam]. *)
  Definition affine_contraction (lam : R) : Prop :=
    forall p q, everywhere exo s n_x (fun i n k => expected_change q p i n k = 0) ->
      tnorm (Nat.max (ex_n exo) 1) (length s) n_x q <= lam * tnorm (Nat.max (ex_n exo) 1) (length s) n_x p.
  (** Equations change at most [M] times as much as the rule. *)
  Definition affine_bound (K : R) : Prop :=
    forall z, everywhere exo s n_x (fun i n k =>
      Rabs (expected_change z z i n k) <= K * tnorm (Nat.max (ex_n exo) 1) (length s) n_x z).
  (** [xs] solves the equations at the nodes. *)
  Definition affine_solution (xs : tensor) : Prop :=
    everywhere exo s n_x (fun i n k =>
      euler affine_transition affine_equation (dp_n (ex_dp exo) 0) (dp_weight (ex_dp exo) i) (dp_node (ex_dp exo) i)
        (interpolate xs i) (ex_node exo i) (nth n s []) (at_node n_x xs i n) k = 0).
End Affine.
