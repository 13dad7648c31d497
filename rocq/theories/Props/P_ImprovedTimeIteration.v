(** Property theorems C30-C32: improved time iteration. *)
From Coq Require Import String Reals List Arith Lia Lra.
From Verif.Base Require Import Prelude Arrays Sums Ext.
From Verif.Spec Require Import Complementarity Euler LinearAlgebra NewtonStep.
From Verif.Model Require Import Discretization Distributions Processes DecisionRule Complementarity LinearSolve NumDiff TimeIteration ImprovedTimeIteration.
From Verif.Spec Require Import ImprovedTimeIteration.
From Verif.Proofs Require Import ItiJacobian TimeIterationProofs ImprovedTimeIterationProofs.
Import ListNotations.
Open Scope R_scope.

(** C30.  Same residuals (or same exception) as plain time iteration, for every kind of discretised
    process and every rule. *)
Theorem C30_same_residuals :
  forall g f exo s n_x dr x,
    (exists c, exo = mc_exo c /\ (1 <= nrow (fst c))%nat) \/
    (exists p, exo = gdp_exo p /\ (1 <= nrow (gdp_nodes p))%nat) \/
    (exists d dim, exo = iid_exo d dim) ->
    euler_residuals g f exo s n_x dr x = residuals_simple g f exo s n_x dr x.
Proof. exact same_residuals. Qed.
Print Assumptions C30_same_residuals.

(** C30.  With bounds, the residual of improved time iteration vanishes exactly where the
    complementarity conditions hold (compare C23 for the solver used by plain time iteration). *)
Theorem C30_complementarity :
  forall lb ub x r,
    lb <> PInf -> ub <> MInf -> ext_le lb ub -> (iti_value lb ub x r = Some 0 <-> mcp lb ub x r).
Proof. exact iti_value_zero. Qed.
Print Assumptions C30_complementarity.

Example C30_example :
  (exists d dim, iid_exo (Equi (Mat 2 1 (fun i _ => INR i))) 1 = iid_exo d dim) /\
  iti_value (Fin 0) PInf 0 3 = Some 0 /\ mcp (Fin 0) PInf 0 3.
Proof.
  split; [do 2 eexists; reflexivity|].
  assert (H : mcp (Fin 0) PInf 0 3) by (unfold mcp; cbn; repeat split; intros; lra).
  split; [|exact H]. apply C30_complementarity; try discriminate; cbn; try exact I; exact H.
Qed.

(** C31.  What [invert_jac] returns: the sum of the terms L^c ddx, c = 0..nn+1, and the equation it solves. *)
Theorem C31_neumann :
  forall ev n_m n_im N n_x r D P fut_S tol maxit tot nn,
    linear_rule n_m n_im N n_x ev ->
    invert_jac ev n_m n_im N n_x r D P fut_S tol maxit = Ok (tot, nn) ->
    exists t : nat -> tensor,
      (forall i n k, (i < n_m)%nat -> (n < N)%nat -> (k < n_x)%nat -> present_effect n_x D (t 0%nat) i n k = r i n k) /\
      (forall c i n k, (i < n_m)%nat -> t (S c) i n k = future_effect n_im n_x ev P fut_S (t c) i n k) /\
      (forall i n k, tot i n k = rsum (nn + 2) (fun c => t c i n k)) /\
      (forall i n k, (i < n_m)%nat ->
         tot i n k - future_effect n_im n_x ev P fut_S tot i n k = t 0%nat i n k - t (nn + 2)%nat i n k) /\
      (nn < maxit)%nat /\
      ((nn + 1 < maxit)%nat -> tnorm n_m N n_x (t (nn + 1)%nat) < tol) /\
      (forall c, (c < nn)%nat -> tol <= tnorm n_m N n_x (t (c + 1)%nat)).
Proof. exact invert_jac_sum. Qed.
Print Assumptions C31_neumann.

(** C31.  In terms of the Newton system D dx + J dx = residual: solved up to the image of the last term,
    which is below the tolerance unless the iteration limit was reached. *)
Theorem C31_newton_system :
  forall ev n_m n_im N n_x r D J P fut_S tol maxit tot nn,
    linear_rule n_m n_im N n_x ev ->
    premultiply n_m n_im N n_x D J = Ok P ->
    invert_jac ev n_m n_im N n_x r D P fut_S tol maxit = Ok (tot, nn) ->
    exists last : tensor,
      newton_system n_m n_im N n_x ev D J fut_S r tot
        (present_effect n_x D (future_effect n_im n_x ev P fut_S last)) /\
      (nn < maxit)%nat /\
      ((nn + 1 < maxit)%nat -> tnorm n_m N n_x last < tol).
Proof. exact newton_step. Qed.
Print Assumptions C31_newton_system.

(** C31.  Distance to the exact step when the operator is a contraction. *)
Theorem C31_error_bound :
  forall ev n_m n_im N n_x r D P fut_S tol maxit tot nn lam xs,
    linear_rule n_m n_im N n_x ev ->
    invert_jac ev n_m n_im N n_x r D P fut_S tol maxit = Ok (tot, nn) ->
    0 <= lam < 1 ->
    (forall p, tnorm n_m N n_x (future_effect n_im n_x ev P fut_S p) <= lam * tnorm n_m N n_x p) ->
    (forall i n k, (i < n_m)%nat -> (n < N)%nat -> (k < n_x)%nat ->
       present_effect n_x D (fun i n k => xs i n k - future_effect n_im n_x ev P fut_S xs i n k) i n k = r i n k) ->
    (forall i n, (i < n_m)%nat -> (n < N)%nat -> ~ singular n_x (D i n)) ->
    (nn + 1 < maxit)%nat ->
    tnorm n_m N n_x (fun i n k => tot i n k - xs i n k) <= lam / (1 - lam) * tol.
Proof. exact neumann_error. Qed.
Print Assumptions C31_error_bound.

(** One node, one control, D = 2, J = -1, constant extrapolation: the exact step is 1 for a residual of 1. *)
Example C31_example :
  linear_rule 1 1 1 1 (fun p i j S l => p i 0%nat l) /\
  newton_system 1 1 1 1 (fun p i j S l => p i 0%nat l) (fun _ _ _ _ => 2) (fun _ _ _ _ _ => -1) (fun _ _ _ => [])
    (fun _ _ _ => 1) (fun _ _ _ => 1) (fun _ _ _ => 0).
Proof.
  split.
  - intros a b p q r H i j S l Hi Hj Hl. apply H; lia.
  - intros i n k Hi Hn Hk. unfold present_effect, future_effect. cbn. lra.
Qed.

(** C31.  With complementarities: moving the control at speed [c] while the residual moves along [Rf],
    the modified residual moves at the speed given by the factors applied to the derivatives (the points
    where the code switches a bound off, at distance 100000, excepted). *)
Theorem C31_complementarity_jacobian :
  forall nan lb ub x c (Rf : R -> R) dR a b,
    derivable_pt_lim Rf 0 dR ->
    above x lb <> Fin 100000 -> below ub x <> Fin 100000 ->
    iti_factors lb ub x (Rf 0) = Some (a, b) ->
    derivable_pt_lim (fun h => orn nan (iti_smoothed lb ub (x + c * h) (Rf h))) 0 (a * dR + b * c).
Proof. exact iti_factors_deriv. Qed.
Print Assumptions C31_complementarity_jacobian.

Example C31_complementarity_example :
  iti_factors (Fin 0) PInf 3 4 = Some (1 * (1 - 4 / 5), 1 * (1 - 3 / 5) + 0).
Proof. exact iti_factors_example. Qed.

(** C32.  The run: every update is a pass with error at least tol; what is reported. *)
Theorem C32_run :
  forall g f exo s n_x interpolate lb ub compl nan tol maxb smaxit maxit x0 r,
      improved_time_iteration g f exo s n_x interpolate lb ub compl nan tol maxb smaxit maxit x0 = Ok r ->
      exists p nn tot,
        (iti_N r < maxit)%nat /\
        updates (fun x y => tol <= error_at g f exo s n_x interpolate lb ub compl nan x /\ pass g f exo s n_x interpolate lb ub compl nan tol maxb smaxit x y) (iti_N r) x0 p /\
        iti_f_x r = error_at g f exo s n_x interpolate lb ub compl nan p /\ iti_step g f exo s n_x interpolate lb ub compl nan tol smaxit p = Ok (tot, nn) /\ iti_d_x r = tnorm (Nat.max (ex_n exo) 1) (length s) n_x tot /\
        (iti_converged r = true -> iti_x r = p /\ error_at g f exo s n_x interpolate lb ub compl nan p < tol) /\
        (iti_converged r = false -> S (iti_N r) = maxit /\ tol <= error_at g f exo s n_x interpolate lb ub compl nan p /\ pass g f exo s n_x interpolate lb ub compl nan tol maxb smaxit p (iti_x r)).
Proof. exact iti_run. Qed.
Print Assumptions C32_run.

(** C32.  Reported convergence, no bounds: every conditional expectation at the returned rule is at most
    the reported error, which is below tol. *)
Theorem C32_converged :
  forall g f exo s n_x interpolate lb ub nan tol maxb smaxit maxit x0 r,
    (forall i, (i < ex_n exo)%nat -> dp_n (ex_dp exo) i = dp_n (ex_dp exo) 0) ->
    improved_time_iteration g f exo s n_x interpolate lb ub false nan tol maxb smaxit maxit x0 = Ok r ->
    iti_converged r = true ->
    iti_f_x r < tol /\
    forall i n k, (i < ex_n exo)%nat -> (n < length s)%nat -> (k < n_x)%nat ->
      Rabs (euler g f (dp_n (ex_dp exo) i) (dp_weight (ex_dp exo) i) (dp_node (ex_dp exo) i) (interpolate (iti_x r) i)
              (ex_node exo i) (nth n s []) (at_node n_x (iti_x r) i n) k) <= iti_f_x r.
Proof. exact iti_converged_free. Qed.
Print Assumptions C32_converged.

(** C32.  Reported convergence, with bounds. *)
Theorem C32_converged_bounds :
  forall g f exo s n_x interpolate lb ub nan tol maxb smaxit maxit x0 r,
    (forall i, (i < ex_n exo)%nat -> dp_n (ex_dp exo) i = dp_n (ex_dp exo) 0) ->
    (forall i n k, (i < ex_n exo)%nat -> (n < length s)%nat -> (k < n_x)%nat ->
       lb i n k <> PInf /\ ub i n k <> MInf /\ ext_le (lb i n k) (ub i n k)) ->
    improved_time_iteration g f exo s n_x interpolate lb ub true nan tol maxb smaxit maxit x0 = Ok r ->
    iti_converged r = true ->
    iti_f_x r < tol /\
    forall i n k, (i < ex_n exo)%nat -> (n < length s)%nat -> (k < n_x)%nat ->
      mcp_approx (3 * tol) (lb i n k) (ub i n k) (iti_x r i n k)
        (euler g f (dp_n (ex_dp exo) i) (dp_weight (ex_dp exo) i) (dp_node (ex_dp exo) i) (interpolate (iti_x r) i)
              (ex_node exo i) (nth n s []) (at_node n_x (iti_x r) i n) k).
Proof. exact iti_converged_bounds. Qed.
Print Assumptions C32_converged_bounds.

(** The hypotheses are met by a run that converges. *)
Example C32_example :
  forall lb ub nan, exists r,
    improved_time_iteration (fun _ s _ _ => s) (eq_of (fun x => x - 2)) one_exo [[0]] 1 const_ip lb ub false nan
      (1 / 1000) 10 5 5 (fun _ _ _ => 0) = Ok r /\
    iti_converged r = true /\ iti_N r = 1%nat /\ iti_x r 0%nat 0%nat 0%nat = 2 /\ iti_f_x r = 0.
Proof. exact iti_small_run. Qed.

(** C32 fails for the last allowed back-step and for the error reported at [maxit]: here the only update
    raises the error, and the error reported is the one of the previous rule. *)
Theorem C32_last_backstep_refuted :
  forall lb ub nan, exists r tot nn,
    let F := eq_of (fun x => 1 + x ^ 2) in
    improved_time_iteration (fun _ s _ _ => s) F one_exo [[0]] 1 const_ip lb ub false nan
      (1 / 1000) 10 5 1 (fun _ _ _ => 0) = Ok r /\
    iti_step (fun _ s _ _ => s) F one_exo [[0]] 1 const_ip lb ub false nan (1 / 1000) 5 (fun _ _ _ => 0) = Ok (tot, nn) /\
    iti_x r 0%nat 0%nat 0%nat = 0 - tot 0%nat 0%nat 0%nat * (/ 2) ^ 9 /\
    iti_f_x r = 1 /\
    1 < euler (fun _ s _ _ => s) F 1 (fun _ => 1) (fun _ => [0]) (const_ip (iti_x r) 0) [0] [0] [iti_x r 0%nat 0%nat 0%nat] 0.
Proof. exact iti_error_stale. Qed.
Print Assumptions C32_last_backstep_refuted.

