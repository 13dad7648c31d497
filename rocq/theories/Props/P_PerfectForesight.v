(** C36-C39, C69, C90-C93: perfect foresight (dolo/algos/perfect_foresight.py, steady_state.py). *)
From Coq Require Import String Reals List Arith ZArith.
From Verif.Base Require Import Prelude Ext Sums.
From Verif.Model Require Import Complementarity SteadyState PerfectForesight.
From Verif.Spec Require Import Complementarity PerfectForesight PerfectForesightRun.
From Verif.Proofs Require Import PerfectForesightProofs PerfectForesightFinal PerfectForesightFlat.
Import ListNotations.
Open Scope R_scope.

(** C36: whenever [det_residual] returns, the residual vanishes iff the path (dates 0..N-1) starts at the
    initial state, follows the transition, satisfies arbitrage before the last date and ends with
    constant controls. *)
Theorem C36_residual_zero :
  forall n_s n_x g f g_s g_x f_s f_x f_S f_X N Nsh guess start m r j,
    det_residual n_s n_x g f g_s g_x f_s f_x f_S f_X N Nsh guess start m = Ok (r, j) ->
    ((forall t k, (t < N)%nat -> (k < n_s + n_x)%nat -> r t k = 0) <->
     perfect_foresight n_s n_x g f (N - 1) start m (states_of n_s guess) (controls_of n_s n_x guess)).
Proof. exact det_residual_zero. Qed.
Print Assumptions C36_residual_zero.

(** The same up to an error: residuals below [d] are equation errors below [d]. *)
Theorem C36_residual_small :
  forall n_s n_x g f g_s g_x f_s f_x f_S f_X N Nsh guess start m r j d,
    det_residual n_s n_x g f g_s g_x f_s f_x f_S f_X N Nsh guess start m = Ok (r, j) ->
    ((forall t k, (t < N)%nat -> (k < n_s + n_x)%nat -> Rabs (r t k) < d) <->
     perfect_foresight_within n_s n_x g f d (N - 1) start m (states_of n_s guess) (controls_of n_s n_x guess)).
Proof. exact det_residual_small. Qed.
Print Assumptions C36_residual_small.

(** [det_residual] does return, for any path of at least two rows and as many shocks. *)
Example C36_returns : forall n_s n_x g f g_s g_x f_s f_x f_S f_X N guess start m,
    (2 <= N)%nat -> exists r j,
    det_residual n_s n_x g f g_s g_x f_s f_x f_S f_X N N guess start m = Ok (r, j).
Proof.
  intros. unfold det_residual. rewrite Nat.eqb_refl. cbn [negb].
  destruct (Nat.ltb_spec N 2) as [L|_]; [exfalso; apply (Nat.lt_irrefl N), (Nat.lt_le_trans _ _ _ L H)|].
  do 2 eexists. reflexivity.
Qed.

(** C37: if the derivatives supplied with the model are its derivatives, the assembled matrix is the
    derivative of the residual in every direction [d]. *)
Theorem C37_jacobian :
  forall n_s n_x g f g_s g_x f_s f_x f_S f_X,
    transition_derivatives n_s n_x g g_s g_x ->
    arbitrage_derivatives n_s n_x f f_s f_x f_S f_X ->
    forall N Nsh guess start m r J,
      det_residual n_s n_x g f g_s g_x f_s f_x f_S f_X N Nsh guess start m = Ok (r, J) ->
      forall d i k, (i < N)%nat -> (k < n_s + n_x)%nat ->
      derivable_pt_lim
        (fun h => det_res n_s n_x g f N (fun t q => guess t q + h * d t q) start m i k) 0
        (rsum N (fun j => rsum (n_s + n_x) (fun l => J i k j l * d j l))).
Proof. exact det_jac_derivative. Qed.
Print Assumptions C37_jacobian.

(** The same for the system as the solvers see it: a vector of unknowns, a square matrix. *)
Theorem C37_flat :
  forall n_s n_x g f g_s g_x f_s f_x f_S f_X,
    transition_derivatives n_s n_x g g_s g_x ->
    arbitrage_derivatives n_s n_x f f_s f_x f_S f_X ->
    forall N start m v d q, (2 <= N)%nat -> (q < N * (n_s + n_x))%nat ->
      derivable_pt_lim
        (fun h => fst (ff n_s n_x g f g_s g_x f_s f_x f_S f_X N start m (fun r => v r + h * d r)) q) 0
        (rsum (N * (n_s + n_x)) (fun r => snd (ff n_s n_x g f g_s g_x f_s f_x f_S f_X N start m v) q r * d r)).
Proof. exact ff_jacobian. Qed.
Print Assumptions C37_flat.

(** The hypotheses hold for a model with one state and two controls. *)
Example C37_nonvacuous :
    transition_derivatives 1 2 (pm_g (toy None)) (pm_g_s (toy None)) (pm_g_x (toy None)) /\
    arbitrage_derivatives 1 2 (pm_f (toy None)) (pm_f_s (toy None)) (pm_f_x (toy None))
      (pm_f_S (toy None)) (pm_f_X (toy None)).
Proof. exact toy_derivatives. Qed.

(** C38, dict: each declared variable follows its series then stays at its last value; a variable absent
    from the dict stays at its calibrated value. *)
Theorem C38_dict :
  forall names cal d T eps,
    shocks_to_epsilons names cal (SDict d) T = Ok eps ->
    forall i, (i < length names)%nat -> dict_meaning names cal d i (fun t => eps t i).
Proof. exact shocks_dict. Qed.
Print Assumptions C38_dict.

(** It is accepted exactly when every series used is non-empty and not longer than the horizon. *)
Theorem C38_dict_accepted :
  forall names cal d T,
    (exists eps, shocks_to_epsilons names cal (SDict d) T = Ok eps) <->
    (forall i l, (i < length names)%nat -> dict_get (nth i names EmptyString) d = Some l ->
                 l <> [] /\ (length l <= T + 1)%nat).
Proof. exact shocks_dict_ok. Qed.
Print Assumptions C38_dict_accepted.

(** No shocks: calibrated values forever. *)
Theorem C38_none :
  forall names cal T,
    (0 < length names)%nat ->
    exists eps, shocks_to_epsilons names cal SNone T = Ok eps /\
                forall t i, (i < length names)%nat -> eps t i = cal i.
Proof. exact shocks_none. Qed.
Print Assumptions C38_none.

(** C38, array of [k] rows: the path follows the columns of the array WITHOUT their first entry. *)
Theorem C38_array_partial :
  forall names cal a T eps k i,
    (2 <= k)%nat -> (i < length names)%nat -> length a = (k * length names)%nat ->
    shocks_to_epsilons names cal (SArray a) T = Ok eps ->
    follows_then_stays (column_from (length names) a k 1 i) (fun t => eps t i).
Proof. exact shocks_array_is_shifted_dict. Qed.
Print Assumptions C38_array_partial.

(** So the same path given as an array and as a dict differ. *)
Theorem C38_refuted : exists names cal (path : list R) T eps1 eps2,
    shocks_to_epsilons names cal (SArray path) T = Ok eps1 /\
    shocks_to_epsilons names cal (SDict [(nth 0 names EmptyString, path)]) T = Ok eps2 /\
    eps1 0%nat 0%nat <> eps2 0%nat 0%nat.
Proof. exact shocks_refuted. Qed.
Print Assumptions C38_refuted.

Example C38_nonvacuous : exists eps,
    shocks_to_epsilons ["a"; "b"]%string (fun i => INR i) (SDict [("b"%string, [5; 6])]) 3 = Ok eps /\
    eps 3%nat 1%nat = 6 /\ eps 3%nat 0%nat = 0.
Proof. eexists. split; [reflexivity|]. split; reflexivity. Qed.

(** C39, refuted: a solver which returns its starting point when it solves the system, called with an
    initial guess that solves it inside the bounds, is started elsewhere: the lower bounds are passed as
    starting point (and the upper bounds as lower bounds, the guess as upper bounds). *)
Theorem C39_refuted : exists md sv a lbf ubf o,
    pm_bounds md = Some (lbf, ubf) /\ a_solver a = SLmmcp /\ a_guess a = Some (3%nat, 3%nat, toy_path) /\
    (forall F DF x lb ub, (forall q, F x q = 0) -> ps_lmmcp sv F DF (fun q => Fin (x q)) lb ub = Ok x) /\
    perfect_foresight 1 2 (pm_g md) (pm_f md) 1 (fun _ => 1 / 2) (fun _ _ => 0)
      (states_of 1 (fun t => toy_path (S t))) (controls_of 1 2 (fun t => toy_path (S t))) /\
    (forall t m s k, (t <= 1)%nat -> (k < 2)%nat ->
       ext_lt_l (lbf m s k) (controls_of 1 2 (fun t => toy_path (S t)) t k) /\
       ext_lt_r (controls_of 1 2 (fun t => toy_path (S t)) t k) (ubf m s k)) /\
    pf_solve md sv a = Ok o /\ o_sol o 0%nat 1%nat <> toy_path 1%nat 1%nat.
Proof. exact lmmcp_arguments_wrong. Qed.
Print Assumptions C39_refuted.

(** C90, no bounds: when no warning is issued, the returned table is a perfect-foresight path up to
    1e-6 for the exogenous path built from the arguments. It starts from the state reached after one
    period from the given (or steady) state. *)
Theorem C90_unconstrained :
  forall md sv a o,
    (0 < pm_ns md + pm_nx md)%nat -> unconstrained md a ->
    pf_solve md sv a = Ok o -> o_warned o = Some false ->
    exists eps s1,
      shocks_to_epsilons (pm_names md) (pm_m md) (a_exogenous a) (a_T a) = Ok eps /\
      start_of md a eps s1 /\
      o_rows o = (a_T a + 1 + kept a)%nat /\ o_first o = (- Z.of_nat (kept a))%Z /\
      (forall t, o_eps o (kept a + t)%nat = eps t) /\
      perfect_foresight_within (pm_ns md) (pm_nx md) (pm_g md) (pm_f md) (/ 1000000) (a_T a) s1 eps
        (states_of (pm_ns md) (fun t => o_sol o (kept a + t)%nat))
        (controls_of (pm_ns md) (pm_nx md) (fun t => o_sol o (kept a + t)%nat)).
Proof. exact solve_unconstrained_answer. Qed.
Print Assumptions C90_unconstrained.

Example C90_unconstrained_nonvacuous : forall b sv so, exists o,
    pf_solve (toy b) sv (toy_args true so) = Ok o /\ o_warned o = Some false /\
    o_rows o = 2%nat /\ (forall t, (t < 2)%nat -> forall k, (k < 3)%nat -> o_sol o t k = toy_path (S t) k).
Proof. exact toy_unconstrained. Qed.

(** C90, bounds that depend on the exogenous variables only, solver ncpsolve: complementarity holds up to
    three times the tolerance (bounds beyond 1e20 count as infinite). *)
Theorem C90_constrained :
  forall md sv a lbf ubf o,
    (0 < pm_ns md + pm_nx md)%nat ->
    pm_bounds md = Some (lbf, ubf) -> a_ignore a = false -> a_solver a = SNcpsolve ->
    regular_bounds md lbf ubf ->
    (forall m s s' k, lbf m s k = lbf m s' k /\ ubf m s k = ubf m s' k) ->
    pf_solve md sv a = Ok o -> o_warned o = Some false ->
    let s := states_of (pm_ns md) (fun t => o_sol o (kept a + t)%nat) in
    let x := controls_of (pm_ns md) (pm_nx md) (fun t => o_sol o (kept a + t)%nat) in
    exists eps s1,
      shocks_to_epsilons (pm_names md) (pm_m md) (a_exogenous a) (a_T a) = Ok eps /\
      start_of md a eps s1 /\
      o_rows o = (a_T a + 1 + kept a)%nat /\ o_first o = (- Z.of_nat (kept a))%Z /\
      (forall t, o_eps o (kept a + t)%nat = eps t) /\
      constrained_foresight_within (pm_ns md) (pm_nx md) (pm_g md) (pm_f md) (3 * a_tol a)
        (fun t k => lower_cut BIG (lbf (eps t) (s t) k))
        (fun t k => upper_cut BIG (ubf (eps t) (s t) k))
        (a_T a) s1 eps s x.
Proof. exact solve_ncp_stateless. Qed.
Print Assumptions C90_constrained.

Example C90_constrained_nonvacuous : exists sv o,
    regular_bounds (toy (Some (toy_lb1, toy_ub1))) toy_lb1 toy_ub1 /\
    pf_solve (toy (Some (toy_lb1, toy_ub1))) sv (toy_args false SNcpsolve) = Ok o /\ o_warned o = Some false.
Proof. exact toy_constant_bounds. Qed.

(** C90, refuted for the documented initial condition: with s0 = 1 given, the first row has state 1/2. *)
Theorem C90_initial_state_refuted : exists md sv a o s0,
    a_s0 a = Some s0 /\ a_exogenous a = SNone /\ pf_solve md sv a = Ok o /\ o_warned o = Some false /\
    s0 0%nat = 1 /\ o_sol o 0%nat 0%nat = 1 / 2.
Proof. exact initial_state_wrong. Qed.
Print Assumptions C90_initial_state_refuted.

(** C91, refuted for every call that does not keep the steady state: the returned table is refused as
    initial guess of the same call. *)
Theorem C91_refuted :
  forall md sv a o,
    kept a = 0%nat -> pf_solve md sv a = Ok o ->
    is_err (pf_solve md sv (with_guess a (Some (o_rows o, (pm_ns md + pm_nx md)%nat, o_sol o)))).
Proof. exact warm_start_refused. Qed.
Print Assumptions C91_refuted.

(** C91, calls that keep it, no bounds: the table is accepted and returned unchanged. *)
Theorem C91_kept_partial :
  forall md sv a o,
    (0 < pm_ns md + pm_nx md)%nat -> unconstrained md a -> kept a = 1%nat ->
    pf_solve md sv a = Ok o -> o_warned o = Some false ->
    exists o',
      pf_solve md sv (with_guess a (Some (o_rows o, (pm_ns md + pm_nx md)%nat, o_sol o))) = Ok o' /\
      o_warned o' = Some false /\ o_rows o' = o_rows o /\
      forall t k, (k < pm_ns md + pm_nx md)%nat -> o_sol o' (S t) k = o_sol o (S t) k.
Proof. exact warm_start_kept. Qed.
Print Assumptions C91_kept_partial.

Example C91_nonvacuous : forall sv, exists o,
    pf_solve (toy None) sv toy_kept_args = Ok o /\ o_warned o = Some false /\ kept toy_kept_args = 1%nat /\
    unconstrained (toy None) toy_kept_args.
Proof. exact toy_kept. Qed.

(** C92: if all bounds are finite and one of them moves along the starting path, the call raises. *)
Theorem C92_finite_partial :
  forall md sv a lbf ubf eps sx s1 guess N (lo up : nat -> nat -> R) t t' k,
    pm_bounds md = Some (lbf, ubf) -> a_ignore a = false ->
    pf_start (pm_g md) (pm_names md) (pm_m md) (pm_s md) (pm_x md) (pm_steady md) a = Ok (eps, sx, s1) ->
    pf_guess (pm_ns md) (pm_nx md) (pm_s md) (pm_x md) a s1 = Ok (N, guess) ->
    (forall t k, (t <= a_T a)%nat -> (k < pm_nx md)%nat ->
       lbf (eps t) (states_of (pm_ns md) guess t) k = Fin (lo t k) /\
       ubf (eps t) (states_of (pm_ns md) guess t) k = Fin (up t k)) ->
    (t <= a_T a)%nat -> (t' <= a_T a)%nat -> (k < pm_nx md)%nat ->
    / 100000000 < lo t k - lo t' k \/ / 100000000 < up t k - up t' k ->
    is_err (pf_solve md sv a).
Proof. exact varying_bounds_refused. Qed.
Print Assumptions C92_finite_partial.

(** C92, refuted when an earlier control is free: a lower bound that moves by 1/4 along the returned path
    raises nothing. *)
Theorem C92_refuted : exists md sv a lbf ubf o,
    pm_bounds md = Some (lbf, ubf) /\ a_ignore a = false /\
    pf_solve md sv a = Ok o /\ o_warned o = Some false /\ o_rows o = 2%nat /\
    exists r0 r1, lbf (o_eps o 0%nat) (states_of 1 (o_sol o) 0%nat) 1%nat = Fin r0 /\
                  lbf (o_eps o 1%nat) (states_of 1 (o_sol o) 1%nat) 1%nat = Fin r1 /\ r0 - r1 = 1 / 4.
Proof. exact varying_bound_accepted. Qed.
Print Assumptions C92_refuted.

(** C93, refuted for every call without bounds: maxit and tol have no effect. *)
Theorem C93_refuted :
  forall md sv a maxit tol,
    unconstrained md a -> pf_solve md sv (with_settings a maxit tol) = pf_solve md sv a.
Proof. exact solve_ignores_settings. Qed.
Print Assumptions C93_refuted.

(** C69: [residuals] vanish iff the point is a steady state. *)
Theorem C69_residuals :
  forall n_s n_x g f m s x,
    ((forall k, (k < n_s)%nat -> fst (residuals g f m s x) k = 0) /\
     (forall k, (k < n_x)%nat -> snd (residuals g f m s x) k = 0)) <->
    steady_state n_s n_x g f m s x.
Proof. exact residuals_zero. Qed.
Print Assumptions C69_residuals.

(** C69: when the root finder succeeds with a root, the answer is a steady state. *)
Theorem C69_find_partial :
  forall n_s n_x g f root cal_s cal_x m v s x,
    root (fobj n_s n_x g f m) (concat n_s cal_s cal_x) = Ok (v, true) ->
    (forall k, (k < n_s + n_x)%nat -> fobj n_s n_x g f m v k = 0) ->
    find_steady_state n_s n_x g f root cal_s cal_x m = Ok (s, x) ->
    steady_state n_s n_x g f m s x.
Proof. exact find_steady_state_success. Qed.
Print Assumptions C69_find_partial.

Example C69_nonvacuous : exists v s x,
    (fun (_ : (nat -> R) -> nat -> R) (x0 : nat -> R) => Ok ((fun k => 0 * x0 k), true))
      (fobj 1 2 (pm_g (toy None)) (pm_f (toy None)) (fun _ => 0)) (concat 1 (fun _ => 1) (fun _ => 1)) = Ok (v, true) /\
    find_steady_state 1 2 (pm_g (toy None)) (pm_f (toy None))
      (fun _ x0 => Ok ((fun k => 0 * x0 k), true)) (fun _ => 1) (fun _ => 1) (fun _ => 0) = Ok (s, x).
Proof. do 3 eexists. split; reflexivity. Qed.

(** C69, refuted: a reported failure is not looked at. *)
Theorem C69_refuted : exists n_s n_x g f root cal_s cal_x m v s x,
    root (fobj n_s n_x g f m) (concat n_s cal_s cal_x) = Ok (v, false) /\
    find_steady_state n_s n_x g f root cal_s cal_x m = Ok (s, x) /\
    ~ steady_state n_s n_x g f m s x.
Proof. exact find_steady_state_failure. Qed.
Print Assumptions C69_refuted.

(** C90.  Without a guess, the solver starts from the straight line between the state reached after the shock and the
    calibrated state (and the calibrated controls). *)
Theorem C90_default_guess :
  forall n_s n_x cal_s cal_x a s1 N p,
    a_guess a = None -> (1 <= a_T a)%nat -> pf_guess n_s n_x cal_s cal_x a s1 = Ok (N, p) ->
    N = S (a_T a) /\
    forall t k, (t <= a_T a)%nat ->
      p t k = concat n_s s1 cal_x k + INR t / INR (a_T a) * (concat n_s cal_s cal_x k - concat n_s s1 cal_x k).
Proof. exact default_guess_line. Qed.
Print Assumptions C90_default_guess.
