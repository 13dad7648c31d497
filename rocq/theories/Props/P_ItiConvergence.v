(** C141: improved time iteration converges near a regular equilibrium. *)
From Coq Require Import Reals List Arith Lia Lra Psatz.
From Verif.Base Require Import Prelude Arrays Norms Ext.
From Verif.Spec Require Import NewtonStep ImprovedTimeIteration ItiRegular AffineModel.
From Verif.Model Require Import NumDiff Processes TimeIteration ImprovedTimeIteration.
From Verif.Proofs Require Import TimeIterationProofs ImprovedTimeIterationProofs ItiConvergence ItiAffine.
Import ListNotations.
Open Scope R_scope.

(** One full step: the distance to the equilibrium is multiplied by a factor made of the error of linearisation and of what
    the truncated series leaves, lam to the number of terms. *)
Theorem C141_step : forall g f exo s n_x interpolate lb ub compl nan,
  linear_rule (Nat.max (ex_n exo) 1) (dp_n (ex_dp exo) 0) (length s) n_x (control_of interpolate) ->
  forall xs r lam delta L M,
  regular_equilibrium g f exo s n_x interpolate lb ub compl nan xs r lam delta L M -> 0 <= lam < 1 ->
  forall tol smaxit x, tdist exo s n_x x xs <= r -> (1 <= smaxit)%nat ->
    exists tot nn, iti_step g f exo s n_x interpolate lb ub compl nan tol smaxit x = Ok (tot, nn) /\ (nn < smaxit)%nat /\
      tdist exo s n_x (fun i n k => x i n k - tot i n k) xs <=
        ((delta + L * tdist exo s n_x x xs) * (1 - lam ^ (nn + 2)) + lam ^ (nn + 2)) * tdist exo s n_x x xs.
Proof. exact full_step. Qed.
Print Assumptions C141_step.

(** The run: from any rule within r, nothing is raised, every iteration shrinks the distance by the factor q at least, and
    convergence is reported by iteration k as soon as M q^k times the initial distance is below the tolerance. *)
Theorem C141_converges : forall g f exo s n_x interpolate lb ub compl nan,
  linear_rule (Nat.max (ex_n exo) 1) (dp_n (ex_dp exo) 0) (length s) n_x (control_of interpolate) ->
  forall xs r lam delta L M,
  regular_equilibrium g f exo s n_x interpolate lb ub compl nan xs r lam delta L M -> 0 <= lam < 1 -> 0 <= delta -> 0 <= L ->
  delta + L * r < 1 -> 0 <= r ->
  forall tol maxbsteps smaxit maxit x0,
  (1 <= ex_n exo)%nat -> (1 <= length s)%nat -> (1 <= n_x)%nat -> (1 <= maxbsteps)%nat -> (1 <= smaxit)%nat -> (1 <= maxit)%nat ->
  0 <= M -> tdist exo s n_x x0 xs <= r ->
  let q := 1 - (/ 2) ^ (maxbsteps - 1) * (1 - (delta + L * r + (1 - (delta + L * r)) * lam ^ 2)) in
  exists res, improved_time_iteration g f exo s n_x interpolate lb ub compl nan tol maxbsteps smaxit maxit x0 = Ok res /\
    (iti_N res < maxit)%nat /\ tdist exo s n_x (iti_x res) xs <= q ^ iti_N res * tdist exo s n_x x0 xs /\
    (forall k, (k < maxit)%nat -> M * (q ^ k * tdist exo s n_x x0 xs) < tol -> iti_converged res = true /\ (iti_N res <= k)%nat).
Proof. exact iti_linear_convergence. Qed.
Print Assumptions C141_converges.

(** When residuals bound the distance from below too, no step is cut and the rate is that of full steps. *)
Theorem C141_full_steps : forall g f exo s n_x interpolate lb ub compl nan,
  linear_rule (Nat.max (ex_n exo) 1) (dp_n (ex_dp exo) 0) (length s) n_x (control_of interpolate) ->
  forall xs r lam delta L M,
  regular_equilibrium g f exo s n_x interpolate lb ub compl nan xs r lam delta L M -> 0 <= lam < 1 -> 0 <= delta -> 0 <= L ->
  delta + L * r < 1 -> 0 <= r ->
  forall m tol maxbsteps smaxit maxit x0,
  (1 <= ex_n exo)%nat -> (1 <= length s)%nat -> (1 <= n_x)%nat -> (1 <= maxbsteps)%nat -> (1 <= smaxit)%nat -> (1 <= maxit)%nat ->
  0 <= M -> 0 < tol -> tdist exo s n_x x0 xs <= r ->
  (forall x, tdist exo s n_x x xs <= r -> m * tdist exo s n_x x xs <= error_at g f exo s n_x interpolate lb ub compl nan x) ->
  M * (delta + L * r + (1 - (delta + L * r)) * lam ^ 2) < m ->
  exists res, improved_time_iteration g f exo s n_x interpolate lb ub compl nan tol maxbsteps smaxit maxit x0 = Ok res /\
    (iti_N res < maxit)%nat /\
    tdist exo s n_x (iti_x res) xs <= (delta + L * r + (1 - (delta + L * r)) * lam ^ 2) ^ iti_N res * tdist exo s n_x x0 xs /\
    (forall k, (k < maxit)%nat -> M * ((delta + L * r + (1 - (delta + L * r)) * lam ^ 2) ^ k * tdist exo s n_x x0 xs) < tol ->
       iti_converged res = true /\ (iti_N res <= k)%nat).
Proof. exact iti_full_steps. Qed.
Print Assumptions C141_full_steps.

(** A case: 2 x - X + x^2 = 0 with X tomorrow's control, one node. All hypotheses hold within 1/10 of the equilibrium 0, and
    from 1/10 the run with tolerance 1e-6 converges within 13 iterations. *)
Example C141_case : forall lb ub nan, exists res,
  improved_time_iteration (fun _ s _ _ => s) ahead one_exo [[0]] 1 const_ip lb ub false nan (1 / 10 ^ 6) 10 500 500 (fun _ _ _ => 1 / 10) = Ok res /\
  iti_converged res = true /\ (iti_N res <= 13)%nat.
Proof.
  intros lb ub nan. destruct (ahead_regular lb ub nan) as (H1 & H2 & H3).
  assert (TD : tdist one_exo [[0]] 1 (fun _ _ _ => 1 / 10) (fun _ _ _ => 0) = 1 / 10).
  { unfold tdist. change (Nat.max (ex_n one_exo) 1) with 1%nat. change (length [[0]]) with 1%nat. rewrite tnorm_one. rewrite Rabs_pos_eq; lra. }
  destruct (C141_full_steps (fun _ s _ _ => s) ahead one_exo [[0]] 1%nat const_ip lb ub false nan H1 _ _ _ _ _ _ H2 ltac:(lra) ltac:(lra) ltac:(lra) ltac:(lra) ltac:(lra)
    (9 / 10) (1 / 10 ^ 6) 10%nat 500%nat 500%nat (fun _ _ _ => 1 / 10)
    (le_n _) (le_n _) (le_n _) ltac:(lia) ltac:(lia) ltac:(lia) ltac:(lra) ltac:(lra) ltac:(rewrite TD; lra) H3 ltac:(lra)) as (res & E & _ & _ & C).
  exists res. split; [exact E|]. apply C; [lia|]. rewrite TD.
  set (kap := 1 / 10 ^ 7 + 5 / 4 * (1 / 10) + (1 - (1 / 10 ^ 7 + 5 / 4 * (1 / 10))) * (5 / 9) ^ 2).
  assert (K : 0 <= kap <= 2 / 5) by (unfold kap; lra).
  assert (kap ^ 13 <= (2 / 5) ^ 13) by (apply pow_incr; exact K). clearbody kap. lra.
Qed.

(** The conditions in terms of the model's own coefficients, when its equations are affine in controls: if time iteration
    contracts, improved time iteration converges from every initial rule. *)
Theorem C141_affine : forall n_x next a B C exo s interpolate lb ub nan,
  linear_rule (Nat.max (ex_n exo) 1) (dp_n (ex_dp exo) 0) (length s) n_x (control_of interpolate) ->
  (forall i, (i < ex_n exo)%nat -> dp_n (ex_dp exo) i = dp_n (ex_dp exo) 0) ->
  forall xs lam K,
  affine_solution n_x next a B C exo s interpolate xs ->
  affine_contraction n_x next B C exo s interpolate lam -> affine_bound n_x next B C exo s interpolate K ->
  0 <= lam < 1 -> 0 <= K ->
  forall tol maxbsteps smaxit maxit x0,
  (1 <= ex_n exo)%nat -> (1 <= length s)%nat -> (1 <= n_x)%nat -> (1 <= maxbsteps)%nat -> (1 <= smaxit)%nat -> (1 <= maxit)%nat ->
  let q := 1 - (/ 2) ^ (maxbsteps - 1) * (1 - lam ^ 2) in
  exists res, improved_time_iteration (affine_transition next) (affine_equation n_x a B C) exo s n_x interpolate lb ub false nan
                tol maxbsteps smaxit maxit x0 = Ok res /\
    (iti_N res < maxit)%nat /\ tdist exo s n_x (iti_x res) xs <= q ^ iti_N res * tdist exo s n_x x0 xs /\
    (forall k, (k < maxit)%nat -> K * (q ^ k * tdist exo s n_x x0 xs) < tol -> iti_converged res = true /\ (iti_N res <= k)%nat).
Proof. exact affine_converges. Qed.
Print Assumptions C141_affine.

(** x = 1 + E[X] / 2 with two exogenous states. *)
Example C141_affine_case :
  linear_rule 2 2 1 1 (control_of by_state) /\
  affine_solution 1 (fun _ s _ => s) (fun _ _ _ _ => -1) (fun _ _ _ _ _ => 1) (fun _ _ _ _ _ => - (1 / 2)) two_exo [[0]] by_state (fun _ _ _ => 2) /\
  affine_contraction 1 (fun _ s _ => s) (fun _ _ _ _ _ => 1) (fun _ _ _ _ _ => - (1 / 2)) two_exo [[0]] by_state (1 / 2) /\
  affine_bound 1 (fun _ s _ => s) (fun _ _ _ _ _ => 1) (fun _ _ _ _ _ => - (1 / 2)) two_exo [[0]] by_state (3 / 2).
Proof. exact affine_case. Qed.
