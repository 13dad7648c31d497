(** The Levenberg-Marquardt direction of dolo/numeric/extern/lmmcp.py (187-206 and 293-311). *)
From Coq Require Import Reals Arith.
From Verif.Base Require Import Prelude.
Open Scope R_scope.

Section Direction.
  Variable n : nat.
  (** [np.linalg.cond(J.T @ J) > 1e25] *)
  Variable ill : (nat -> nat -> R) -> bool.
  (** [np.linalg.lstsq(A, b)[0]] of a matrix with that many rows; it may raise. *)
  Variable lstsq : nat -> (nat -> nat -> R) -> (nat -> R) -> res (nat -> R).

  (** 190-199 (preprocessing, 1e-6 when ill conditioned), 296-303 (main phase, 1e-1). *)
  Definition lm_mu (pre : bool) (k : nat) (J : nat -> nat -> R) : R :=
    if ill J then (if pre then 1 / 1000000 else 1 / 10) / INR (k + 1) else / 10 ^ 16.
  (** 201-206, 304-311; from 100 variables on, the system is not damped and the answer is the opposite of lstsq's. *)
  Definition lm_direction (pre : bool) (k : nat) (J : nat -> nat -> R) (phi : nat -> R) : res (nat -> R) :=
    if Nat.ltb n 100 then
      let mu := lm_mu pre k J in
      lstsq (2 * n + n)%nat
        (fun r j => if Nat.ltb r (2 * n) then J r j else sqrt mu * (if Nat.eqb (r - 2 * n) j then 1 else 0))
        (fun r => if Nat.ltb r (2 * n) then - phi r else 0)
    else bind (lstsq (2 * n)%nat J phi) (fun d => Ok (fun j => - d j)).
End Direction.
