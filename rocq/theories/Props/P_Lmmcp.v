(** Property theorems C24, C25, C77: the Levenberg-Marquardt complementarity solver. *)
From Coq Require Import Reals Arith String.
From Verif.Base Require Import Prelude Sums Ext.
From Verif.Model Require Import Lmmcp.
From Verif.Spec Require Import Complementarity.
From Verif.Proofs Require Import LmmcpProofs LmmcpFinal.
Open Scope R_scope.

(** C24.  All 2n residuals vanish iff x solves the complementarity problem, bounds of
    magnitude above Big counting as infinite. *)
Theorem C24_lmmcp_residual_zero :
  forall nan o n F lb ub x,
    (forall i, (i < n)%nat -> bounds_ok (Big o) (lb i) (ub i)) ->
    ((forall r, (r < 2 * n)%nat -> Phi nan o n F lb ub x r = 0) <->
     mcp_vec n (fun i => lower_cut (Big o) (lb i)) (fun i => upper_cut (Big o) (ub i)) x (F x)).
Proof. exact Phi_zero_iff. Qed.
Print Assumptions C24_lmmcp_residual_zero.

(** C24 fails when a bound equals the threshold: with bounds [0, 1e10] and F(x) = x + 1
    the residual is zero at the infeasible point -1 and not at the solution 0. *)
Theorem C24_threshold_bound_refuted :
  forall nan,
    let F := fun (x : nat -> R) i => x i + 1 in
    let lb := fun _ : nat => Fin 0 in let ub := fun _ : nat => Fin (10 ^ 10) in
    (forall r, (r < 2)%nat -> Phi nan default_opts 1 F lb ub (fun _ => -1) r = 0) /\
    ~ mcp (Fin 0) (Fin (10 ^ 10)) (-1) (F (fun _ => -1) 0%nat) /\
    mcp (Fin 0) (Fin (10 ^ 10)) 0 (F (fun _ => 0) 0%nat) /\
    ~ (forall r, (r < 2)%nat -> Phi nan default_opts 1 F lb ub (fun _ => 0) r = 0).
Proof. exact Phi_threshold_wrong. Qed.
Print Assumptions C24_threshold_bound_refuted.

(** C25.  A normal return, with at most kmax = 500 preprocessing steps: the merit function
    is at most eps2, hence every complementarity condition holds up to 30 sqrt(2 eps2). *)
Theorem C25_lmmcp_returns_solutions :
  forall nan o n F DF lb ub lsq xs r,
    (presteps o <= kmax)%nat ->
    (forall i, (i < n)%nat -> bounds_ok (Big o) (lb i) (ub i)) ->
    lmmcp nan o n F DF lb ub lsq xs = Ok r ->
    Psi_of n (Phi nan o n F lb ub r) <= eps2 o /\
    forall i, (i < n)%nat ->
      mcp_approx (30 * sqrt (2 * eps2 o))
        (lower_cut (Big o) (lb i)) (upper_cut (Big o) (ub i)) (r i) (F r i).
Proof. exact lmmcp_solution. Qed.
Print Assumptions C25_lmmcp_returns_solutions.

(** Otherwise it raises "No convergence" (or the least-squares routine raised). *)
Theorem C25_lmmcp_outcomes :
  forall nan o n F DF lb ub lsq xs,
    (forall b k J v, exists d, lsq b k J v = Ok d) ->
    (exists r, lmmcp nan o n F DF lb ub lsq xs = Ok r) \/
    lmmcp nan o n F DF lb ub lsq xs = Err (ExcGeneric "No convergence").
Proof. exact lmmcp_outcome. Qed.
Print Assumptions C25_lmmcp_outcomes.

(** Every iterate of the preprocessing phase (after any number of steps) is in the box. *)
Theorem C25_preprocessing_feasible :
  forall nan o n F DF lb ub lsq fuel xs x phix psix dphix k,
    (forall i, (i < n)%nat -> ext_le (lb i) (ub i) /\ lb i <> PInf /\ ub i <> MInf) ->
    let x0 := fun i => clip nan (lb i) (ub i) (xs i) in
    pre_loop nan o n F DF lb ub lsq fuel 0 x0 (Phi nan o n F lb ub x0)
       (Psi_of n (Phi nan o n F lb ub x0)) (DPhi nan o n F DF lb ub x0) 5 1
      = Ok (x, phix, psix, dphix, k) ->
    (k <= fuel)%nat /\ phix = Phi nan o n F lb ub x /\ psix = Psi_of n phix /\
    forall i, (i < n)%nat -> ext_le_l (lb i) (x i) /\ ext_le_r (x i) (ub i).
Proof. exact preprocessing_feasible. Qed.
Print Assumptions C25_preprocessing_feasible.

(** The restriction on presteps is needed: with 501 preprocessing steps an unconverged
    point is returned without any error. *)
Theorem C25_large_presteps_refuted :
  forall nan,
    let o := {| eps2 := / 10 ^ 14; null_ := / 10 ^ 8; Big := 10 ^ 10; preprocess := true;
                presteps := S kmax; verbose := true |} in
    let F := fun (_ : nat -> R) (_ : nat) => 1 in
    let DF := fun (_ : nat -> R) (_ _ : nat) => 0 in
    let lb := fun _ : nat => MInf in let ub := fun _ : nat => PInf in
    let lsq := fun (_ : bool) (_ : nat) (_ : nat -> nat -> R) (_ : nat -> R) =>
                 Ok (fun _ : nat => 1) in
    exists r, lmmcp nan o 1 F DF lb ub lsq (fun _ => 0) = Ok r /\
              eps2 o < Psi_of 1 (Phi nan o 1 F lb ub r).
Proof. exact presteps_wrong. Qed.
Print Assumptions C25_large_presteps_refuted.

(** A run that returns, at a binding upper bound. *)
Example C25_nonvacuous :
  forall nan lsq,
    exists r, lmmcp nan default_opts 1 (fun _ _ => -1) (fun _ _ _ => 0) (fun _ => Fin 0)
                (fun _ => Fin 1) lsq (fun _ => 5) = Ok r /\ r 0%nat = 1.
Proof. exact lmmcp_example. Qed.

(** C77.  Away from the kinks (by more than 1e-8) the (2n x n) matrix used for the
    Levenberg-Marquardt steps is the Jacobian of the residual. *)
Theorem C77_lmmcp_jacobian :
  forall nan o n F DF lb ub x r j,
    (r < 2 * n)%nat -> (j < n)%nat ->
    (forall i, (i < n)%nat -> bounds_ok (Big o) (lb i) (ub i)) ->
    (forall i, (i < n)%nat -> away_from_kinks (1 / 100000000) (lb i) (ub i) (x i) (F x i)) ->
    (forall u v, (forall i, (i < n)%nat -> u i = v i) -> forall i, (i < n)%nat -> F u i = F v i) ->
    (forall i, (i < n)%nat ->
       derivable_pt_lim (fun h => F (fun k => x k + (if Nat.eqb k j then h else 0)) i) 0 (DF x i j)) ->
    derivable_pt_lim (fun h => Phi nan o n F lb ub (fun k => x k + (if Nat.eqb k j then h else 0)) r) 0
      (DPhi nan o n F DF lb ub x r j).
Proof. exact DPhi_is_derivative. Qed.
Print Assumptions C77_lmmcp_jacobian.

(** Hence the vector used by the line search is the gradient of the merit function, half the sum of squared residuals. *)
Theorem C77_lmmcp_gradient :
  forall nan o n F DF lb ub x j,
    (j < n)%nat ->
    (forall i, (i < n)%nat -> bounds_ok (Big o) (lb i) (ub i)) ->
    (forall i, (i < n)%nat -> away_from_kinks (1 / 100000000) (lb i) (ub i) (x i) (F x i)) ->
    (forall u v, (forall i, (i < n)%nat -> u i = v i) -> forall i, (i < n)%nat -> F u i = F v i) ->
    (forall i, (i < n)%nat ->
       derivable_pt_lim (fun h => F (fun k => x k + (if Nat.eqb k j then h else 0)) i) 0 (DF x i j)) ->
    derivable_pt_lim
      (fun h => / 2 * rsum (2 * n) (fun r => Phi nan o n F lb ub (fun k => x k + (if Nat.eqb k j then h else 0)) r ^ 2)) 0
      (DPsi_of n (DPhi nan o n F DF lb ub x) (Phi nan o n F lb ub x) j).
Proof. exact DPsi_is_gradient. Qed.
Print Assumptions C77_lmmcp_gradient.

Example C77_nonvacuous :
  bounds_ok (10 ^ 10) (Fin 0) (Fin 4) /\ away_from_kinks (1 / 100000000) (Fin 0) (Fin 4) 1 (-2).
Proof. exact away_example. Qed.
