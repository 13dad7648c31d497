(** What one run of the safeguarded Newton method is, without reference to the code. *)
From Coq Require Import Reals Arith.
From Verif.Base Require Import Prelude Norms.
Open Scope R_scope.

(** One accepted Newton step, from [x] to [y]: the trial point for the first number of
    halvings, among 0..29, that lowers the residual norm; the 29th if none does. *)
Definition newton_step_ok {Jac} n (f : (nat -> R) -> (nat -> R) * Jac)
    (lsolve : Jac -> (nat -> R) -> res (nat -> R)) (x y : nat -> R) : Prop :=
  exists dx b,
    lsolve (snd (f x)) (fst (f x)) = Ok dx /\ (b < 30)%nat /\
    y = (fun i => x i - dx i * (/ 2) ^ b) /\
    (forall c, (c < b)%nat ->
       supnorm n (fst (f x)) <= supnorm n (fst (f (fun i => x i - dx i * (/ 2) ^ c)))) /\
    (supnorm n (fst (f y)) < supnorm n (fst (f x)) \/ b = 29%nat).

(** Sequences of iterates. *)
Inductive newton_run {Jac} n (f : (nat -> R) -> (nat -> R) * Jac) lsolve tol
  : nat -> (nat -> R) -> (nat -> R) -> Prop :=
| run_nil : forall x, newton_run n f lsolve tol 0 x x
| run_cons : forall k x y z,
    tol <= supnorm n (fst (f x)) ->
    newton_step_ok n f lsolve x y ->
    newton_run n f lsolve tol k y z ->
    newton_run n f lsolve tol (S k) x z.

