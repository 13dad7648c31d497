(** Discretisation of continuous processes on a grid: discretize(to="gdp") of AR1 and VAR1
    (dolo/numeric/processes.py 388-392, 414-454, 526-530, 551-591). *)
From Coq Require Import String Reals List Arith Bool.
From Verif.Base Require Import Prelude Sums Arrays.
From Verif.Model Require Import Grids Distributions Processes Discretization.
Import ListNotations.
Open Scope R_scope.

Definition not_implemented : exn := ExcGeneric "Not implemented.".

(** CartesianGrid([min], [max], [n]) (445, 582): the class (grids.py 99-101) has no constructor, so that the call with
    arguments raises TypeError. *)
Definition cartesian_grid_call (a b : R) (n : nat) : res unit := Err ExcType.

(** ρ.shape[0] == ρ.shape[1] == 1 under try: a float has no shape. *)
Definition square_one (rho : pynum) : bool :=
  match rho with PyFloat _ => false | PyMat m => (Nat.eqb (nrow m) 1 && Nat.eqb (ncol m) 1)%bool end.

Section Gdp.
  Variable herm : nat -> res ((nat -> R) * (nat -> R)).
  Variable chol : mat -> res mat.

  (** 441-442, 578-579 *)
  Definition gdp_bound (rho s2 : R) : R := 5 / 2 * (sqrt s2 / sqrt (1 - rho ^ 2)).

  (** 447-452, 584-589: the arrays. [weights] and [eps] are those of the quadrature with 5 nodes. *)
  Definition gdp_arrays (rho a b : R) (N : nat) (eps : mat) (weights : vec) : gdp :=
    {| gdp_nodes := Mat N 1 (fun i _ => linspace a b N i); gdp_k := 5;
       gdp_inodes := fun i j => [rho * linspace a b N i + mget eps j 0];
       gdp_iweights := fun _ j => vget weights j |}.

  (** 551-591 with the call of the grid given as [grid_call]. The square root of a negative number is nan, and a unit
      root divides by zero: both are out of scope of real numbers and represented by [ResultNaN]. *)
  Definition discretize_gdp_with (grid_call : R -> R -> nat -> res unit) (rho : pynum) (Sigma : mat) (N : nat) : res gdp :=
    if negb (Nat.eqb (nrow Sigma) 1) then Err not_implemented
    else if negb (square_one rho) then Err not_implemented
    else match rho with
    | PyFloat _ => Err not_implemented
    | PyMat m =>
        let r := mget m 0%nat 0%nat in
        bind (gauss_hermite_nodes herm chol [5%nat] Sigma (Vec (nrow Sigma) (fun _ => 0))) (fun xws =>
        let '(eps, weights, _) := xws in
        if Rlt_dec (r ^ 2) 1 then
          let b := gdp_bound r (mget Sigma 0%nat 0%nat) in
          bind (grid_call (- b) b N) (fun _ => Ok (gdp_arrays r (- b) b N eps weights))
        else Err ResultNaN)
    end.

  Definition var1_discretize_gdp (p : var1) (N : nat) : res gdp :=
    discretize_gdp_with cartesian_grid_call (PyMat (v_rho p)) (v_Sigma p) N.

  (** 414-454: for AR1 ρ is the float given to the constructor, and σ is used as a covariance. *)
  Definition ar1_discretize_gdp (rho sigma mu : R) (N : nat) : res gdp :=
    discretize_gdp_with cartesian_grid_call (PyFloat rho) (Mat 1 1 (fun _ _ => sigma)) N.
End Gdp.
