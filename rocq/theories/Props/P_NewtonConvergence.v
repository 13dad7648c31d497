(** Property theorems C120: convergence of newton. *)
From Coq Require Import Reals Arith Lia Lra.
From Verif.Base Require Import Prelude Norms Sums.
From Verif.Model Require Import LinearSolve Newton.
From Verif.Spec Require Import LinearAlgebra Stationary NewtonRoot.
From Verif.Proofs Require Import GaussFinal ErgodicProofs StationaryLaws NewtonConvergence.
Open Scope R_scope.

(** C120.  Started close enough to a regular root, [newton] never raises, its error after [k] iterations is bounded by
    e0 (K L e0)^(2^k-1), and it reports convergence by the first iteration at which that bound brings the residual below
    the tolerance. *)
Theorem C120_quadratic :
  forall n f solve xs r K L M tol maxit x0,
    (0 < n)%nat -> exact_solver solve -> complete_solver solve ->
    regular_root n f xs r K L M -> 0 < K -> 0 <= L -> 0 <= M -> 0 < tol -> K * L * r * (1 + K * M) < 1 ->
    dist n x0 xs <= r ->
    let e0 := dist n x0 xs in
    let bound k := e0 * (K * L * e0) ^ (2 ^ k - 1) in
    exists x it ok, newton n f (solve n) tol maxit x0 = Ok (x, it, ok) /\ (it <= maxit)%nat /\
      dist n x xs <= bound it /\ (ok = true -> supnorm n (fst (f x)) < tol) /\
      (forall k, (k < maxit)%nat -> M * bound k < tol -> ok = true /\ (it <= k)%nat).
Proof. exact newton_converges. Qed.
Print Assumptions C120_quadratic.

(** On an affine function it needs at most one step, which gives the exact root. *)
Theorem C120_affine :
  forall n f solve A b tol maxit x0,
    (0 < n)%nat -> exact_solver solve -> complete_solver solve -> ~ singular n A -> 0 < tol ->
    (forall x i, (i < n)%nat -> fst (f x) i = mat_vec n A x i - b i) -> (forall x, snd (f x) = A) -> (2 <= maxit)%nat ->
    exists x it, newton n f (solve n) tol maxit x0 = Ok (x, it, true) /\ (it <= 1)%nat /\
      (it = 1%nat -> solves n A b x).
Proof. exact newton_affine. Qed.
Print Assumptions C120_affine.

(** x + x^2 near its root 0, from 1/20: eleven correct digits of the residual within four iterations. *)
Example C120_example :
  exists x it, newton 1 (fun x => (fun _ => x 0%nat + x 0%nat ^ 2, fun _ _ => 1 + 2 * x 0%nat)) (gauss_solve 1)
                 (/ 10 ^ 11) 10 (fun _ => / 20) = Ok (x, it, true) /\ (it <= 4)%nat.
Proof.
  set (f := fun x : nat -> R => ((fun _ : nat => x 0%nat + x 0%nat ^ 2), (fun _ _ : nat => 1 + 2 * x 0%nat))).
  assert (S1 : forall v, supnorm 1 v = Rabs (v 0%nat)).
  { intros v. destruct (supnorm_attained 1 v ltac:(lia)) as (i & Hi & E). replace i with 0%nat in E by lia. exact E. }
  assert (D0 : dist 1 (fun _ => / 20) (fun _ => 0) = / 20) by (unfold dist; rewrite S1; rewrite Rabs_pos_eq; lra).
  assert (HR : regular_root 1 f (fun _ => 0) (/ 20) (10 / 9) 1 (21 / 20)).
  { intros x Hx. unfold dist in *. rewrite S1 in Hx. rewrite !S1. unfold f; cbn [fst snd]. unfold mat_vec. cbn [rsum]. set (a := x 0%nat) in *.
    rewrite Rminus_0_r in *. split; [|split].
    - replace (a + a ^ 2) with ((1 + a) * a) by ring. rewrite Rabs_mult. apply Rmult_le_compat_r; [apply Rabs_pos|].
      apply Rabs_le. revert Hx. unfold Rabs. destruct (Rcase_abs a); lra.
    - intros v. rewrite !S1. rewrite Rplus_0_l, Rabs_mult, <- Rmult_assoc.
      rewrite <- (Rmult_1_l (Rabs (v 0%nat))) at 1. apply Rmult_le_compat_r; [apply Rabs_pos|].
      rewrite Rabs_pos_eq; revert Hx; unfold Rabs; destruct (Rcase_abs a); lra.
    - rewrite RPow_abs. replace (a + a ^ 2 - (0 + (1 + 2 * a) * a)) with (- a ^ 2) by ring. rewrite Rabs_Ropp. lra. }
  destruct (C120_quadratic 1 f gauss_solve (fun _ => 0) (/ 20) (10 / 9) 1 (21 / 20) (/ 10 ^ 11) 10 (fun _ => / 20)
              ltac:(lia) gauss_exact_solver gauss_complete_solver HR) as (x & it & ok & E & _ & _ & _ & C); try lra.
  destruct (C 4%nat ltac:(lia)) as (-> & Hit).
  - rewrite D0. change (2 ^ 4 - 1)%nat with 15%nat. lra.
  - exists x, it. split; assumption.
Qed.
