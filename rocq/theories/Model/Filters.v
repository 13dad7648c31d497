(** Model of /repo/dolo/numeric/filters.py. *)
From Coq Require Import String Reals List Arith Bool.
From Verif.Base Require Import Prelude Sums.
From Verif.Spec Require Import LinearAlgebra.
Import ListNotations.
Open Scope R_scope.

(** [M[i, start:start+len(vals)] = vals] on a matrix with [n] columns: ValueError when the slice is cut by the
    border of the matrix. *)
Definition set_slice (n i start : nat) (vals : list R) (M : nat -> nat -> R) : res (nat -> nat -> R) :=
  if Nat.leb (start + length vals) n
  then Ok (fun r c => if Nat.eqb r i && Nat.leb start c && Nat.ltb c (start + length vals) then nth (c - start) vals 0 else M r c)
  else Err ExcValue.

(** 49-73: the matrix of the first-order conditions. *)
Definition hp_matrix (n : nat) (lam : R) : res (nat -> nat -> R) :=
  let first_last := [1 + lam; -2 * lam; lam] in
  let second := [-2 * lam; 1 + 5 * lam; -4 * lam; lam] in
  let middle := [lam; -4 * lam; 1 + 6 * lam; -4 * lam; lam] in
  bind (set_slice n 0 0 first_last eye) (fun M =>
  bind (set_slice n 1 0 second M) (fun M =>
  bind (set_slice n (n - 2) (n - 4) (rev second) M) (fun M =>
  bind (set_slice n (n - 1) (n - 3) (rev first_last) M) (fun M =>
  for_range_res (n - 2 - 2) (fun k M => set_slice n (2 + k) k middle M) M)))).

Inductive series : Type :=
| Series1 (n : nat) (y : nat -> R)
| Series2 (n : nat) (rows : list (nat -> R))
| SeriesN.

Section Solve.
  (** scipy.sparse.linalg.spsolve. *)
  Variable solve : nat -> (nat -> nat -> R) -> (nat -> R) -> res (nat -> R).

  (** 46-80: trend and cycle of a 1-d series. *)
  Definition hp_1d (n : nat) (y : nat -> R) (lam : R) : res ((nat -> R) * (nat -> R)) :=
    bind (hp_matrix n lam) (fun M =>
    bind (solve n M y) (fun T =>
    Ok (T, fun t => y t - T t))).

  Fixpoint hp_rows (n : nat) (rows : list (nat -> R)) (lam : R) : res (list ((nat -> R) * (nat -> R))) :=
    match rows with
    | [] => Ok []
    | y :: r => bind (hp_1d n y lam) (fun p => bind (hp_rows n r lam) (fun ps => Ok (p :: ps)))
    end.

  (** 38-46: each row of a 2-d array is filtered with the default lam = 1600 (the recursive call drops
      [lam]); an empty list cannot be stacked (ValueError). *)
  Definition hp_filter (data : series) (lam : R) : res (list ((nat -> R) * (nat -> R))) :=
    match data with
    | Series1 n y => bind (hp_1d n y lam) (fun p => Ok [p])
    | Series2 n [] => Err ExcValue
    | Series2 n rows => hp_rows n rows 1600
    | SeriesN => Err (ExcGeneric "HP filter is not defined for dimension >= 3.")
    end.
End Solve.

(** 83-119: weights of the band-pass filter; [i] from 0 to 2k. *)
Definition bp_raw (k : nat) (w1 w2 : R) (i : nat) : R :=
  let low := PI * 2 / w2 in
  let high := PI * 2 / w1 in
  let weight := fun j => 1 / (PI * INR j) * (sin (high * INR j) - sin (low * INR j)) in
  if Nat.eqb i k then (high - low) / PI
  else if Nat.ltb k i then weight (i - k)%nat
  else weight (k - i)%nat.
Definition bp_weights (k : nat) (w1 w2 : R) (i : nat) : R :=
  bp_raw k w1 w2 i - rsum (2 * k + 1) (bp_raw k w1 w2) / INR (2 * k + 1).

(** scipy.signal.fftconvolve(a, b, mode='valid'): the entries of the convolution which use every point of
    the shorter argument (the arguments are swapped when the first is shorter); empty if one is empty. *)
Definition conv_valid (na : nat) (a : nat -> R) (nb : nat) (b : nat -> R) : nat * (nat -> R) :=
  if Nat.eqb na 0 || Nat.eqb nb 0 then (O, fun _ => 0)
  else if Nat.leb na nb then (S (nb - na), fun t => rsum na (fun i => a i * b (t + (na - 1) - i)%nat))
  else (S (na - nb), fun t => rsum nb (fun i => b i * a (t + (nb - 1) - i)%nat)).

(** 107-119: weights, then the convolution with the series; ZeroDivisionError for a zero (Python) period. *)
Definition bandpass (k : nat) (w1 w2 : R) (n : nat) (y : nat -> R) : res (nat * (nat -> R)) :=
  if (if Req_EM_T w1 0 then true else false) || (if Req_EM_T w2 0 then true else false) then Err ExcZeroDiv
  else Ok (conv_valid (2 * k + 1) (bp_weights k w1 w2) n y).
