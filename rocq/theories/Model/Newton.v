(** Safeguarded Newton iterations: dolo/numeric/optimize/newton.py [newton] and
    dolo/numeric/optimize/ncpsolve.py [ncpsolve].
    Arrays are flattened: [x], [v] are vectors of [n] entries whatever their shape; the
    Jacobian is of an arbitrary type [Jac] only seen by the linear solver. *)
From Coq Require Import Reals Arith Lia.
From Verif.Base Require Import Prelude Norms Ext.
From Verif.Model Require Import Complementarity.
Open Scope R_scope.

(** newton.py:102: [maxbacksteps]. *)
Definition maxbacksteps : nat := 30.

Section Newton.
  Variable Jac : Type.
  Variable n : nat.                                   (* number of entries *)
  Variable f : (nat -> R) -> (nat -> R) * Jac.        (* the user's function *)
  Variable lsolve : Jac -> (nat -> R) -> res (nat -> R).   (* linear solver, may raise *)
  Variable tol : R.

  (** newton.py:142: [xx = x - dx * (2 ** (-bck))]. *)
  Definition trial (x dx : nat -> R) (bck : nat) : nat -> R :=
    fun i => x i - dx i * (/ 2) ^ bck.

  (** newton.py:141-148: backtracking; after the last allowed step the last trial is
      kept whatever its residual. *)
  Fixpoint backtrack (remaining bck : nat) (error_0 : R) (x dx : nat -> R) : nat -> R :=
    let xx := trial x dx bck in
    match remaining with
    | O => xx
    | S r => if Rlt_dec (supnorm n (fst (f xx))) error_0 then xx
             else backtrack r (S bck) error_0 x dx
    end.

  (** newton.py:113-157: the main loop; [fuel] = maxit - it.  The boolean tells whether
      [converged] was set (otherwise a warning is issued).  [abs(v).max()] raises
      ValueError on an empty array. *)
  Fixpoint newton_loop (fuel it : nat) (x : nat -> R) : res ((nat -> R) * nat * bool) :=
    match fuel with
    | O => Ok (x, it, false)
    | S fuel' =>
        if Nat.eqb n 0 then Err ExcValue else
        let '(v, dv) := f x in
        let error_0 := supnorm n v in
        if Rlt_dec error_0 tol then Ok (x, it, true)
        else bind (lsolve dv v) (fun dx =>
             newton_loop fuel' (S it) (backtrack (maxbacksteps - 1) 0 error_0 x dx))
    end.

  (** newton.py:84-157. *)
  Definition newton (maxit : nat) (x : nat -> R) : res ((nat -> R) * nat * bool) :=
    newton_loop maxit 0 x.
End Newton.
Arguments newton {Jac} n f lsolve tol maxit x.
Arguments newton_loop {Jac} n f lsolve tol fuel it x.
Arguments backtrack {Jac} n f remaining bck error_0 x dx.

(** ncpsolve.py:10-27.  [f] returns the residuals and a dense Jacobian (rows = entries); an entry
    of the smoothed residual or Jacobian that would be nan is represented by [nan], an arbitrary
    real (the statements exclude it by their hypotheses). *)
Definition or_nan (nan : R) (o : option R) : R := match o with Some v => v | None => nan end.

Definition ncp_fcmp (nan : R) (jt : jactype) (a b : nat -> ext)
    (f : (nat -> R) -> (nat -> R) * (nat -> nat -> R)) (z : nat -> R)
  : (nat -> R) * (nat -> nat -> R) :=
  let '(val, dval) := f z in
  (fun i => or_nan nan (ncp_smooth_value jt (a i) (b i) (z i) (- val i)),
   fun i j => or_nan nan (ncp_smooth_jac jt (a i) (b i) (z i) (- val i) (Nat.eqb i j) (- dval i j))).

Definition ncpsolve (nan : R) (n : nat) (jt : jactype)
    (f : (nat -> R) -> (nat -> R) * (nat -> nat -> R))
    (lsolve : (nat -> nat -> R) -> (nat -> R) -> res (nat -> R))
    (a b : nat -> ext) (tol : R) (maxit : nat) (x : nat -> R)
  : res ((nat -> R) * nat * bool) :=
  newton n (ncp_fcmp nan jt a b f) lsolve tol maxit x.
