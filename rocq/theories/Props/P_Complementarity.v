(** Property theorems C20-C23, C26: complementarity conditions and Newton iterations. *)
From Coq Require Import Reals Arith.
From Verif.Base Require Import Prelude Norms Ext.
From Verif.Model Require Import LinearSolve Complementarity Newton.
From Verif.Spec Require Import LinearAlgebra Complementarity Newton.
From Verif.Proofs Require Import FischerBurmeister NewtonProofs ComplementarityFinal.
Open Scope R_scope.

(** C20. *)
Theorem C20_fischer_burmeister_zero :
  forall a b : R, PhiFB a b = 0 <-> 0 <= a /\ 0 <= b /\ a * b = 0.
Proof. exact PhiFB_zero_iff. Qed.
Print Assumptions C20_fischer_burmeister_zero.

(** C21, finite bounds: dolo.algos.fb.smooth_FB. *)
Theorem C21_smooth_FB_zero :
  forall f x a b : R, a <= b -> (smooth_FB f x a b = 0 <-> mcp (Fin a) (Fin b) x f).
Proof. exact smooth_FB_zero_iff. Qed.
Print Assumptions C21_smooth_FB_zero.

(** C21 for dolo.algos.fb.smooth: every entry of the array. *)
Theorem C21_smooth_array :
  forall (n_ms N n_x : nat) (f x a b : nat -> nat -> nat -> R) i n j,
    (i < n_ms)%nat -> (n < N)%nat -> (j < n_x)%nat -> a i n j <= b i n j ->
    (smooth_arr n_ms N n_x f x a b i n j = 0 <->
     mcp (Fin (a i n j)) (Fin (b i n j)) (x i n j) (f i n j)).
Proof. exact smooth_arr_zero_iff. Qed.
Print Assumptions C21_smooth_array.

(** C21 for ncpsolve (serial and sparse): bounds may be infinite, and a bound of
    magnitude 1e20 or more counts as infinite. *)
Theorem C21_ncpsolve_residual_zero :
  forall jt a b x f,
    jt <> JFull -> a <> PInf -> b <> MInf -> ext_le (lower_cut BIG a) (upper_cut BIG b) ->
    (fcmp_value jt a b x f = Some 0 <-> mcp (lower_cut BIG a) (upper_cut BIG b) x f).
Proof. exact fcmp_zero_iff. Qed.
Print Assumptions C21_ncpsolve_residual_zero.

Example C21_nonvacuous :
  mcp (Fin 0) (Fin 1) 0 3 /\ mcp (Fin 0) (Fin 1) 1 (-3) /\ ~ mcp (Fin 0) (Fin 1) 1 3 /\
  ext_le (lower_cut BIG (Fin 0)) (upper_cut BIG PInf) /\ mcp (Fin 0) PInf 2 0.
Proof. exact mcp_examples. Qed.

(** C21, infinite bounds with dolo.algos.fb.smooth_FB: the claim fails, the residual is
    nan at every point, solution or not. *)
Theorem C21_smooth_FB_infinite_refuted :
  forall f x a b,
    a = MInf \/ b = PInf ->
    smooth_FB_flt f x a b = NaN.
Proof. exact smooth_FB_flt_infinite. Qed.
Print Assumptions C21_smooth_FB_infinite_refuted.

(** C22. *)
Theorem C22_PhiFB_partials :
  forall a b : R,
    (a, b) <> (0, 0) ->
    fst (fst (PhiFB_ a b)) = PhiFB a b /\
    derivable_pt_lim (fun s => PhiFB s b) a (snd (fst (PhiFB_ a b))) /\
    derivable_pt_lim (fun s => PhiFB a s) b (snd (PhiFB_ a b)).
Proof. exact PhiFB__full. Qed.
Print Assumptions C22_PhiFB_partials.

Theorem C22_smooth_FB_derivative :
  forall (f : R -> R) x a b df,
    derivable_pt_lim f x df ->
    (f x, x - a) <> (0, 0) -> (PhiFB (f x) (x - a), b - x) <> (0, 0) ->
    fst (smooth_FB_ (f x) x a b df) = smooth_FB (f x) x a b /\
    derivable_pt_lim (fun s => smooth_FB (f s) s a b) x (snd (smooth_FB_ (f x) x a b df)).
Proof. exact smooth_FB__correct. Qed.
Print Assumptions C22_smooth_FB_derivative.

(** The Jacobian entry (i,j) returned by ncpsolve.smooth is the derivative of the i-th
    smoothed residual with respect to the j-th unknown, when it is not nan. *)
Theorem C22_ncpsolve_jacobian :
  forall jt n (a b : nat -> ext) (F : (nat -> R) -> nat -> R) (J : nat -> nat -> R) x i j d,
    jt <> JFull -> (i < n)%nat -> (j < n)%nat ->
    derivable_pt_lim (fun h => F (fun k => x k + (if Nat.eqb k j then h else 0)) i) 0 (J i j) ->
    ncp_smooth_jac jt (a i) (b i) (x i) (F x i) (Nat.eqb i j) (J i j) = Some d ->
    (forall u v, (forall k, (k < n)%nat -> u k = v k) -> F u i = F v i) ->
    exists V,
      (forall h, ncp_smooth_value jt (a i) (b i) (x i + (if Nat.eqb i j then h else 0))
                   (F (fun k => x k + (if Nat.eqb k j then h else 0)) i) = Some (V h)) /\
      derivable_pt_lim V 0 d.
Proof. exact ncp_jacobian. Qed.
Print Assumptions C22_ncpsolve_jacobian.

(** Inside ncpsolve: the matrix of each Newton step is the Jacobian of the residuals of this step, for every system
    whose Jacobian is correct, at every point where no entry is nan. *)
Theorem C22_newton_matrix : forall nan jt n a b f x i j,
    jt <> JFull -> (i < n)%nat -> (j < n)%nat ->
    derivable_pt_lim (fun h => fst (f (fun k => x k + (if Nat.eqb k j then h else 0))) i) 0 (snd (f x) i j) ->
    (forall u v, (forall k, (k < n)%nat -> u k = v k) -> fst (f u) i = fst (f v) i) ->
    ncp_coefs (a i) (b i) (x i) (- fst (f x) i) <> None ->
    derivable_pt_lim (fun h => fst (ncp_fcmp nan jt a b f (fun k => x k + (if Nat.eqb k j then h else 0))) i) 0
      (snd (ncp_fcmp nan jt a b f x) i j).
Proof. exact ncp_fcmp_jacobian. Qed.
Print Assumptions C22_newton_matrix.

Example C22_nonvacuous : (1, 2) <> (0, 0) /\
  exists d, ncp_smooth_jac JSerial (Fin 0) (Fin 4) 1 1 true 1 = Some d.
Proof. exact ncp_jac_example. Qed.

(** C23, positive part: with serial or sparse Jacobians, a run that stops before maxit
    returns a point satisfying every complementarity condition up to 3 tol. *)
Theorem C23_ncpsolve_enforces_bounds :
  forall nan n jt f lsolve a b tol maxit x r it conv,
    (0 < n)%nat -> jt <> JFull ->
    (forall i, (i < n)%nat ->
       a i <> PInf /\ b i <> MInf /\ ext_le (lower_cut BIG (a i)) (upper_cut BIG (b i))) ->
    ncpsolve nan n jt f lsolve a b tol maxit x = Ok (r, it, conv) ->
    (it <= maxit)%nat /\
    ((it < maxit)%nat -> forall i, (i < n)%nat ->
       mcp_approx (3 * tol) (lower_cut BIG (a i)) (upper_cut BIG (b i)) (r i) (fst (f r) i)).
Proof. exact ncpsolve_final. Qed.
Print Assumptions C23_ncpsolve_enforces_bounds.

(** C23 fails for jactype='full': for f(x) = x - 2 on [0,1] and any exact linear solver,
    the run reports convergence within tol of 2, outside the bounds. *)
Theorem C23_full_jacobian_refuted :
  forall nan lsolve tol maxit x0,
    0 < tol -> (2 <= maxit)%nat ->
    (forall (J : nat -> nat -> R) v, J 0%nat 0%nat <> 0 ->
        exists dx, lsolve J v = Ok dx /\ solves 1 J v dx) ->
    exists r it,
      ncpsolve nan 1 JFull (fun x => (fun i => x i - 2, fun _ _ => 1)) lsolve
               (fun _ => Fin 0) (fun _ => Fin 1) tol maxit (fun _ => x0)
      = Ok (r, it, true) /\ (it < maxit)%nat /\ Rabs (r 0%nat - 2) < tol.
Proof. exact ncpsolve_full_wrong. Qed.
Print Assumptions C23_full_jacobian_refuted.

(** The solver hypothesis is met by the repository's own Gaussian elimination. *)
Example C23_solver_exists :
  forall (J : nat -> nat -> R) v, J 0%nat 0%nat <> 0 ->
    exists dx, gauss_solve 1 J v = Ok dx /\ solves 1 J v dx.
Proof. exact gauss_solve_1. Qed.

(** C26. *)
Theorem C26_newton_answer :
  forall (Jac : Type) n (f : (nat -> R) -> (nat -> R) * Jac) lsolve tol maxit x r it conv,
    (0 < n)%nat ->
    newton n f lsolve tol maxit x = Ok (r, it, conv) ->
    (it <= maxit)%nat /\
    ((it < maxit)%nat <-> conv = true) /\
    ((it < maxit)%nat -> supnorm n (fst (f r)) < tol) /\
    newton_run n f lsolve tol it x r.
Proof. exact @newton_final. Qed.
Print Assumptions C26_newton_answer.

(** Affine systems: one step is enough, and it lands on the solution. *)
Theorem C26_newton_affine :
  forall n (A : nat -> nat -> R) (b : nat -> R) lsolve tol maxit x,
    (0 < n)%nat -> 0 < tol -> (2 <= maxit)%nat ->
    (forall v dx, lsolve A v = Ok dx -> solves n A v dx) ->
    (forall v, exists dx, lsolve A v = Ok dx) ->
    exists r it,
      newton n (fun x => (fun i => mat_vec n A x i - b i, A)) lsolve tol maxit x = Ok (r, it, true) /\
      (it <= 1)%nat /\ (it = 1%nat -> solves n A b r) /\
      (it = 0%nat -> r = x /\ supnorm n (fun i => mat_vec n A x i - b i) < tol).
Proof. exact newton_affine_final. Qed.
Print Assumptions C26_newton_affine.

Example C26_nonvacuous :
  exists r, newton 1 (fun x => (fun i : nat => 2 * x i - 6, fun _ _ : nat => 2)) (gauss_solve 1)
              (/ 1000) 5 (fun _ => 0) = Ok (r, 1%nat, true) /\ r 0%nat = 3.
Proof. exact newton_example. Qed.
