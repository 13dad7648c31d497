(** Model of /repo/dolo/numeric/matrix_equations.py. *)
From Coq Require Import String Reals List Arith Bool.
From Verif.Base Require Import Prelude Sums Arrays Nda.
From Verif.Spec Require Import LinearAlgebra.
Import ListNotations.
Open Scope R_scope.

Definition mat_t (m : mat) : mat := Mat (ncol m) (nrow m) (fun i j => mget m j i).
Definition mat_eye (n : nat) : mat := Mat n n eye.
(** Sum of matrices of the same shape (simplification: broadcasting of size-1 shapes is refused). *)
Definition mat_add (a b : mat) : res mat :=
  if Nat.eqb (nrow a) (nrow b) && Nat.eqb (ncol a) (ncol b)
  then Ok (Mat (nrow a) (ncol a) (fun i j => mget a i j + mget b i j)) else Err ExcValue.

Section Solve.
  (** numpy.linalg.solve on a square system; scipy's ordqz (sorted generalised Schur decomposition). *)
  Variable solve : nat -> (nat -> nat -> R) -> (nat -> R) -> res (nat -> R).
  Variable qz : nat -> (nat -> nat -> R) -> (nat -> nat -> R) -> R ->
    res ((nat -> nat -> R) * (nat -> nat -> R) * (nat -> nat -> R) * (nat -> nat -> R)).

  (** [solve(L, b)] with its shape checks (LinAlgError if not square, ValueError on sizes). *)
  Definition np_solve (L : mat) (nb : nat) (b : nat -> R) : res (nat -> R) :=
    if negb (Nat.eqb (nrow L) (ncol L)) then Err ExcLinAlg
    else if negb (Nat.eqb (nrow L) nb) then Err ExcValue
    else solve (nrow L) (mget L) b.

  (** 61-71, for the two pairs it is called with; ravel is in C order. *)
  Definition solve_sylvester_vectorized (A1 B1 A2 B2 K : mat) : res mat :=
    let n := nrow A1 in
    let q := nrow B1 in
    let k := fun p => mget K (p / ncol K) (p mod ncol K) in
    bind (mat_add (kron A1 (mat_t B1)) (kron A2 (mat_t B2))) (fun L =>
    bind (np_solve L (nrow K * ncol K) (fun p => - k p)) (fun X =>
    if Nat.eqb (ncol L) (n * q) then Ok (Mat n q (fun i j => X (i * q + j)%nat)) else Err ExcValue)).

  (** 93-98: C, or kron(C, C), multiplied [times] more times. *)
  Fixpoint kron_more (CC C : mat) (times : nat) : mat :=
    match times with O => CC | S t => kron_more (kron CC C) C t end.
  Definition kron_power (C : mat) (n_d : nat) : mat :=
    kron_more (if Nat.eqb n_d 1 then C else kron C C) C (n_d - 2).

  (** 74-122, method='linear' (the default).  A 0-d [D] gives an exponent -1: ZeroDivisionError if
      n_v = 0, else a float n_c and a TypeError at the reshape. *)
  Definition solve_sylvester (A B C : mat) (D : nda) : res nda :=
    match length (shape D) with
    | O => if Nat.eqb (ncol C) 0 then Err ExcZeroDiv else Err ExcType
    | S n_d =>
        let n_v := ncol C in
        let w := (n_v ^ n_d)%nat in
        if Nat.eqb w 0 then Err ExcZeroDiv
        else
          let n_c := (size (shape D) / w)%nat in
          bind (reshape D [n_c; w]) (fun DD =>
          let DDm := Mat n_c w (fun i j => at_ DD [i; j]) in
          let CC := kron_power C n_d in
          bind (solve_sylvester_vectorized A (mat_eye (nrow CC)) B CC DDm) (fun XX =>
          reshape (Nda [nrow XX; ncol XX] (fun idx => mget XX (nth 0 idx 0%nat) (nth 1 idx 0%nat)))
                  (n_c :: repeat n_v n_d)))
    end.

  (** 29-41: the companion matrices Delta = [F 0; 0 I] and Xi = [-G -H; I 0]. *)
  Definition companion_delta (m : nat) (F : nat -> nat -> R) : nat -> nat -> R := fun i j =>
    if Nat.ltb i m then (if Nat.ltb j m then F i j else 0)
    else (if Nat.ltb j m then 0 else eye (i - m) (j - m)).
  Definition companion_xi (m : nat) (G H : nat -> nat -> R) : nat -> nat -> R := fun i j =>
    if Nat.ltb i m then (if Nat.ltb j m then - G i j else - H i (j - m)%nat)
    else (if Nat.ltb j m then eye (i - m) j else 0).

  (** [solve(A, B)] with a matrix on the right: column by column. *)
  Definition solve_columns (n : nat) (A B : nat -> nat -> R) : res (nat -> nat -> R) :=
    for_range_res n (fun j X =>
      bind (solve n A (fun i => B i j)) (fun x => Ok (fun i k => if Nat.eqb k j then x i else X i k)))
      (fun _ _ => 0).

  (** 9-58, without the eigenvalues.  The conversion to reals (54-56) is the identity on reals. *)
  Definition second_order_solver (m : nat) (F G H : nat -> nat -> R) : res (nat -> nat -> R) :=
    bind (qz (m + m)%nat (companion_delta m F) (companion_xi m G H) 1) (fun r =>
    let '(_, _, _, V) := r in
    bind (solve_columns m (fun i j => V j (m + i)%nat) (fun i j => V (m + j)%nat (m + i)%nat)) (fun PP =>
    Ok (fun i j => - PP i j))).
End Solve.
