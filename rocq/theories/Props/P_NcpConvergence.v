(** Property theorems C149: local convergence of ncpsolve. *)
From Coq Require Import Reals Arith Lia Lra.
From Verif.Base Require Import Prelude Norms Ext.
From Verif.Model Require Import LinearSolve Complementarity Newton.
From Verif.Spec Require Import LinearAlgebra Stationary NewtonRoot Complementarity NcpRegular.
From Verif.Proofs Require Import GaussFinal ErgodicProofs StationaryLaws NcpConvergence.
Open Scope R_scope.

(** C149.  Near a strict solution whose components inside the bounds are determined by the equations at first order, ncpsolve
    (serial or sparse Jacobians) never raises, and its error after [k] iterations is at most e0 (C e0)^(2^k-1), where e0 is
    the distance from the starting point; it reports convergence as soon as that bound is small compared to the tolerance. *)
Theorem C149_quadratic : forall nan n jt f solve a b xs,
  (0 < n)%nat -> jt <> JFull -> exact_solver solve -> complete_solver solve ->
  smooth_system n f xs ->
  (forall i, (i < n)%nat -> strict_solution (lower_cut BIG (a i)) (upper_cut BIG (b i)) (xs i) (fst (f xs) i)) ->
  regular_inside n (fun i => lower_cut BIG (a i)) (fun i => upper_cut BIG (b i)) xs (snd (f xs)) ->
  exists r C M, 0 < r /\ 0 <= C /\ C * r < 1 /\ 0 <= M /\
    forall tol maxit x0, 0 < tol -> dist n x0 xs <= r ->
    let e0 := dist n x0 xs in
    let bound k := e0 * (C * e0) ^ (2 ^ k - 1) in
    exists x it ok, ncpsolve nan n jt f (solve n) a b tol maxit x0 = Ok (x, it, ok) /\ (it <= maxit)%nat /\
      dist n x xs <= bound it /\
      (forall k, (k < maxit)%nat -> M * bound k < tol -> ok = true /\ (it <= k)%nat).
Proof. exact ncpsolve_converges. Qed.
Print Assumptions C149_quadratic.

(** So there is a number of iterations, the same for all starting points near the solution, within which it stops, at a point
    satisfying every complementarity condition up to three times the tolerance. *)
Theorem C149_stops : forall nan n jt f solve a b xs,
  (0 < n)%nat -> jt <> JFull -> exact_solver solve -> complete_solver solve ->
  smooth_system n f xs ->
  (forall i, (i < n)%nat -> strict_solution (lower_cut BIG (a i)) (upper_cut BIG (b i)) (xs i) (fst (f xs) i)) ->
  regular_inside n (fun i => lower_cut BIG (a i)) (fun i => upper_cut BIG (b i)) xs (snd (f xs)) ->
  exists r, 0 < r /\ forall tol, 0 < tol -> exists k, forall maxit x0, (k < maxit)%nat -> dist n x0 xs <= r ->
    exists x it, ncpsolve nan n jt f (solve n) a b tol maxit x0 = Ok (x, it, true) /\ (it <= k)%nat /\ dist n x xs <= r /\
      forall i, (i < n)%nat -> mcp_approx (3 * tol) (lower_cut BIG (a i)) (upper_cut BIG (b i)) (x i) (fst (f x) i).
Proof. exact ncpsolve_stops. Qed.
Print Assumptions C149_stops.

(** Two unknowns, one strictly between two bounds and one at its only bound; the repository's own Gaussian elimination. *)
Example C149_case :
  smooth_system 2 two_unknowns two_solution /\
  (forall i, (i < 2)%nat -> strict_solution (lower_cut BIG (two_lower i)) (upper_cut BIG (two_upper i)) (two_solution i) (fst (two_unknowns two_solution) i)) /\
  regular_inside 2 (fun i => lower_cut BIG (two_lower i)) (fun i => upper_cut BIG (two_upper i)) two_solution (snd (two_unknowns two_solution)) /\
  exact_solver gauss_solve /\ complete_solver gauss_solve.
Proof.
  destruct two_case as (A & B & C). repeat split; try assumption.
  - exact (proj1 (gauss_exact_solver _ _ _ _ H)).
  - exact (proj2 (gauss_exact_solver _ _ _ _ H)).
  - exact gauss_complete_solver.
Qed.
