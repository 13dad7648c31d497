(** Property theorems C17-C19, C68: the hand-written linear solvers. *)
From Coq Require Import Reals Arith.
From Verif.Base Require Import Prelude Sums.
From Verif.Model Require Import LinearSolve.
From Verif.Spec Require Import LinearAlgebra.
From Verif.Proofs Require Import GaussFinal.
Open Scope R_scope.

(** C17.  For every square matrix and right-hand side: either the solver returns the
    unique solution, or the matrix is singular; and it never returns a solution for a
    singular matrix. *)
Theorem C17_gauss_solve_exact :
  forall (n : nat) (A : nat -> nat -> R) (b : nat -> R),
    match gauss_solve n A b with
    | Ok x => solves n A b x /\
              (forall y, solves n A b y -> forall i, (i < n)%nat -> y i = x i) /\
              ~ singular n A
    | Err _ => singular n A
    end.
Proof. exact gauss_solve_correct. Qed.
Print Assumptions C17_gauss_solve_exact.

(** Both branches occur. *)
Example C17_nonvacuous :
  (exists x, gauss_solve 2 (fun i j => if Nat.eqb i j then 0 else INR (i + 1)) (fun i => INR i) = Ok x) /\
  is_err (gauss_solve 2 (fun _ _ => 1) (fun i => INR i)).
Proof. exact gauss_example. Qed.

(** C18.  In-place inversion: for vectors, tensors and matrices with n columns (and
    for the first n columns of wider ones) B is overwritten by the solution of A X = B
    and A by the identity; it raises exactly for singular A. *)
Theorem C18_invert_exact :
  forall (n : nat) (k : rhs) (A B : nat -> nat -> R),
    (rhs_visited n k <= rhs_cols n k)%nat ->
    match invert n k A B with
    | Ok (A', B') =>
        (forall i j, (i < n)%nat -> (j < n)%nat -> A' i j = eye i j) /\
        (forall c, (c < rhs_visited n k)%nat -> solves n A (fun i => B i c) (fun i => B' i c)) /\
        ~ singular n A
    | Err _ => singular n A
    end.
Proof. exact invert_correct. Qed.
Print Assumptions C18_invert_exact.

(** Right-hand sides for which every column is visited: vectors, square matrices and
    all tensors. *)
Example C18_all_columns :
  forall n p q, rhs_visited n RVec = rhs_cols n RVec
    /\ rhs_visited n (RMat n) = rhs_cols n (RMat n)
    /\ rhs_visited n (RTen p q) = rhs_cols n (RTen p q).
Proof. intros; repeat split. Qed.

Theorem C18_invert_gu_exact :
  forall (n : nat) (A : nat -> nat -> R),
    match invert_gu n A with
    | Ok X => (forall i j, (i < n)%nat -> (j < n)%nat -> mat_mul n A X i j = eye i j)
              /\ ~ singular n A
    | Err _ => singular n A
    end.
Proof. exact invert_gu_correct. Qed.
Print Assumptions C18_invert_gu_exact.

(** C19 is false: with more columns than rows the extra columns are wrong... *)
Theorem C19_wide_rhs_refuted :
  exists n p A B, (n < p)%nat /\ ~ singular n A /\
    exists A' B', invert n (RMat p) A B = Ok (A', B') /\
      ~ (forall k, (k < p)%nat -> solves n A (fun i => B i k) (fun i => B' i k)).
Proof. exact invert_rect_refuted. Qed.
Print Assumptions C19_wide_rhs_refuted.

(** ... and with fewer columns than rows the code always runs out of bounds. *)
Theorem C19_narrow_rhs_refuted :
  forall n p A B, (p < n)%nat -> invert n (RMat p) A B = Err ExcIndex.
Proof. exact invert_narrow_out_of_bounds. Qed.
Print Assumptions C19_narrow_rhs_refuted.

(** C68.  Page-wise operations. *)
Theorem C68_serial_multiplication :
  forall NA I JA NB JB K A B,
    match serial_multiplication NA I JA NB JB K A B with
    | Ok r => JB = JA /\ NB = NA /\
              forall n i k, (n < NA)%nat -> (i < I)%nat -> (k < K)%nat ->
                r n i k = mat_mul JA (A n) (B n) i k
    | Err _ => JB <> JA \/ NB <> NA
    end.
Proof. exact serial_multiplication_spec. Qed.
Print Assumptions C68_serial_multiplication.

(** In diagnose mode every page is solved by the library solver, or the exception names
    the first page on which it fails. *)
Theorem C68_serial_solve_diagnose :
  forall (linalg_solve : (nat -> nat -> R) -> (nat -> R) -> res (nat -> R)) N A B,
    match serial_solve_diag linalg_solve N A B with
    | SerialOk sol => forall i, (i < N)%nat -> linalg_solve (A i) (B i) = Ok (sol i)
    | SerialFail i => (i < N)%nat /\ is_err (linalg_solve (A i) (B i)) /\
                      forall j, (j < i)%nat -> exists x, linalg_solve (A j) (B j) = Ok x
    end.
Proof. exact serial_solve_diag_spec. Qed.
Print Assumptions C68_serial_solve_diagnose.

(** Without diagnosis: every page is solved exactly, whatever happens on the others. *)
Theorem C68_serial_solve_nodiagnose :
  forall n N A B i, (i < N)%nat ->
    match serial_solve_nodiag n N A B i with
    | Some x => solves n (A i) (B i) x /\ ~ singular n (A i)
    | None => singular n (A i)
    end.
Proof. exact serial_solve_nodiag_correct. Qed.
Print Assumptions C68_serial_solve_nodiagnose.
