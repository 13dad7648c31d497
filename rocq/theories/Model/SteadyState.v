(** Steady states: dolo/algos/steady_state.py.  Vectors are functions of an index; [g] and [f] are
    the model's transition and arbitrage functions at the calibrated parameters. *)
From Coq Require Import Reals Arith.
From Verif.Base Require Import Prelude.
Open Scope R_scope.

Section SteadyState.
  Variables n_s n_x : nat.
  (** [model.functions["transition"](m, s, x, M, p)] *)
  Variable g : (nat -> R) -> (nat -> R) -> (nat -> R) -> (nat -> R) -> nat -> R.
  (** [model.functions["arbitrage"](m, s, x, M, S, X, p)] *)
  Variable f : (nat -> R) -> (nat -> R) -> (nat -> R) -> (nat -> R) -> (nat -> R) -> (nat -> R) -> nat -> R.

  (** steady_state.py:8-25 [residuals]: the two entries of the returned dictionary, at a calibration
      given by its vectors [m], [s], [x]. *)
  Definition residuals (m s x : nat -> R) : (nat -> R) * (nat -> R) :=
    (fun k => g m s x m k - s k, f m s x m s x).

  (** Slices [v[:n_s]] and [v[n_s:]] (steady_state.py:38-39, 51); entries past the end are 0. *)
  Definition slice (lo n : nat) (v : nat -> R) : nat -> R :=
    fun k => if Nat.ltb k n then v (lo + k)%nat else 0.

  (** [np.concatenate([a, b])] for [a] of length [n]. *)
  Definition concat (n : nat) (a b : nat -> R) : nat -> R :=
    fun k => if Nat.ltb k n then a k else b (k - n)%nat.

  (** steady_state.py:37-42 [fobj]. *)
  Definition fobj (m v : nat -> R) : nat -> R :=
    let '(rt, ra) := residuals m (slice 0 n_s v) (slice n_s n_x v) in concat n_s rt ra.

  (** steady_state.py:28-52 [find_steady_state].  [root] is scipy.optimize.root: it returns a point
      and a success flag, or raises.  The flag is not looked at (lines 48-49).  The answer is given
      by its vectors of states and controls; the exogenous vector is [m] itself. *)
  Definition find_steady_state
      (root : ((nat -> R) -> nat -> R) -> (nat -> R) -> res ((nat -> R) * bool))
      (cal_s cal_x m : nat -> R) : res ((nat -> R) * (nat -> R)) :=
    bind (root (fobj m) (concat n_s cal_s cal_x)) (fun sol =>
    Ok (slice 0 n_s (fst sol), slice n_s n_x (fst sol))).
End SteadyState.
