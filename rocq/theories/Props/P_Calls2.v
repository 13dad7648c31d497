(** Property C122, continued: calls that are refused, and with which exception. *)
From Coq Require Import String ZArith Reals List Arith Lia Lra.
From Verif.Base Require Import Prelude Ext Sums Arrays Nda Dict.
From Verif.Model Require Import DecisionRule Taylor Tensor ModelObject Processes Egm Ergodic Discretization Grids TimeIteration
  Simulation.
From Verif.Proofs Require Import Refusals2 DrivingPaths.
Import ListNotations.
Open Scope R_scope.

(** A Taylor expansion is evaluated exactly at points of the right length, when its coefficient of order k has one row per
    variable and k axes for the states; other calls raise ValueError. *)
Theorem C122_taylor_value :
  forall t p,
    ((exists o, te_eval1 t p = Ok o) <->
     length p = length (te_s t) /\ (1 <= length (te_coefs t) <= 3)%nat /\
     (forall k c, nth_error (te_coefs t) k = Some c ->
        shape c = length (te_x t) :: repeat (length (te_s t)) (S k))) /\
    (forall e, te_eval1 t p = Err e -> e = ExcValue).
Proof. exact te_eval_outcomes. Qed.
Print Assumptions C122_taylor_value.

(** Variables are selected exactly when all their numbers exist, in the values and in the coefficients; IndexError
    otherwise. *)
Theorem C122_taylor_select :
  forall t ind, (1 <= length (te_coefs t) <= 3)%nat ->
    (ind <> [] ->
     ((exists t', te_getitem t ind = Ok t') <->
      forall i, In i ind -> (i < length (te_x t))%nat /\
        forall c, In c (te_coefs t) -> exists d sh, shape c = d :: sh /\ (i < d)%nat)) /\
    (forall e, te_getitem t ind = Err e -> e = ExcIndex).
Proof.
  intros t ind H. split; [intros HN; exact (te_getitem_outcomes t ind H HN)|intros e; exact (te_getitem_error t ind e H)].
Qed.
Print Assumptions C122_taylor_select.

(** multitake wants an axis for each list of indices. *)
Theorem C122_multitake :
  forall a inds axes,
    ((length axes < length inds)%nat -> forall a', multitake a inds axes <> Ok a') /\
    (inds <> [] -> axes = [] -> multitake a inds axes = Err ExcIndex) /\
    (inds = [] -> multitake a inds axes = Ok a).
Proof.
  intros a inds axes. split; [exact (multitake_axes inds axes a)|]. split; [|intros ->; reflexivity].
  intros H ->. destruct inds; [contradiction|reflexivity].
Qed.
Print Assumptions C122_multitake.

(** The bounds of the controls: a pair when the two functions exist, None when there is no upper bound, KeyError when only
    the upper bound exists. *)
Theorem C122_x_bounds :
  forall (F : Type) (fs : dict F),
    let has k := exists f, dget fs k = Some f in
    ((exists ab, x_bounds fs = Ok (Some ab)) <->
       has "controls_ub"%string /\ has "controls_lb"%string \/
       ~ has "controls_ub"%string /\ has "arbitrage_ub"%string /\ has "arbitrage_lb"%string) /\
    (x_bounds fs = Ok None <-> ~ has "controls_ub"%string /\ ~ has "arbitrage_ub"%string) /\
    (forall e, x_bounds fs = Err e -> e = ExcKey).
Proof. exact x_bounds_outcomes. Qed.
Print Assumptions C122_x_bounds.

(** AR1.response is never computed: no date, IndexError; one date, TypeError; more, ValueError. *)
Theorem C122_ar1_response :
  forall rho sigma mu T impulse,
    (T = 0%nat -> ar1_response rho sigma mu T impulse = Err ExcIndex) /\
    (T = 1%nat -> ar1_response rho sigma mu T impulse = Err ExcType) /\
    ((2 <= T)%nat -> ar1_response rho sigma mu T impulse = Err ExcValue).
Proof. exact ar1_response_outcomes. Qed.
Print Assumptions C122_ar1_response.

(** VAR1.response is computed when the persistence has as many columns as there are variables, or for a single date. *)
Theorem C122_var1_response :
  forall p T impulse,
    (T = 0%nat -> var1_response p T impulse = Err ExcIndex) /\
    ((2 <= T)%nat -> ncol (v_rho p) <> nrow (v_Sigma p) -> var1_response p T impulse = Err ExcValue) /\
    ((1 <= T)%nat -> (T = 1%nat \/ ncol (v_rho p) = nrow (v_Sigma p)) -> exists irf, var1_response p T impulse = Ok irf).
Proof. exact var1_response_refused. Qed.
Print Assumptions C122_var1_response.

(** A rule called at one point returns the first row of its values; IndexError when there is none. *)
Theorem C122_call :
  forall ev_s p,
    (ev_s [p] = Ok [] -> call1 ev_s (P1 p) = Err ExcIndex) /\
    (forall r l, ev_s [p] = Ok (r :: l) -> call1 ev_s (P1 p) = Ok (P1 r)).
Proof. exact call1_empty. Qed.
Print Assumptions C122_call.

Theorem C122_call_exogenous :
  forall ev_is ev_ms a p,
    let out := match a with Idx i => ev_is i [p] | Pts (P1 m) => ev_ms [m] [p] | Pts (P2 m) => ev_ms m [p] end in
    (forall rows, a <> Pts (P2 rows)) ->
    (out = Ok [] -> call2 ev_is ev_ms a (P1 p) = Err ExcIndex) /\
    (forall r l, out = Ok (r :: l) -> call2 ev_is ev_ms a (P1 p) = Ok (P1 r)).
Proof. exact call2_empty. Qed.
Print Assumptions C122_call_exogenous.

(** egm returns, if it may iterate, unless there is no post-state or exogenous state to compare. *)
Theorem C122_egm :
  forall exo (is_iid : bool) s a N_a n_h h gt tau atau lb ub dr0 el nan tol maxit,
    let run := egm exo is_iid s a N_a n_h h gt tau atau lb ub dr0 el nan true tol maxit in
    ((exists r, run = Ok r) <-> (1 <= maxit)%nat /\ ((0 < ex_n exo * N_a)%nat \/ (maxit <= 2)%nat \/ 1 < tol)) /\
    ((1 <= maxit)%nat -> forall e, run = Err e -> e = ExcValue).
Proof. exact egm_outcomes. Qed.
Print Assumptions C122_egm.

(** ergodic_distribution: IndexError without nodes; otherwise it succeeds exactly when the linear solver does, on the
    equations mu (Pi - I) = 0, the last of them replaced by sum mu = 1. *)
Theorem C122_ergodic :
  forall g solve N_m exo dr grid dp Pi,
    ergodic_matrix g N_m exo dr grid dp = Ok Pi ->
    let N := (N_m * nrow (u_nodes grid))%nat in
    (N = 0%nat -> ergodic_distribution g solve N_m exo dr grid dp = Err ExcIndex) /\
    ((0 < N)%nat -> forall mu, ergodic_distribution g solve N_m exo dr grid dp = Ok (Pi, mu) <->
       solve N (fun i j => if Nat.eqb i (N - 1) then 1 else mget Pi j i - (if Nat.eqb i j then 1 else 0))
             (fun i => if Nat.eqb i (N - 1) then 1 else 0) = Ok mu).
Proof. exact ergodic_no_node. Qed.
Print Assumptions C122_ergodic.

Theorem C122_ergodic_iid :
  forall g solve m dr grid dp Pi,
    ergodic_matrix_iid g m dr grid dp = Ok Pi ->
    let N := nrow (u_nodes grid) in
    (N = 0%nat -> ergodic_distribution_iid g solve m dr grid dp = Err ExcIndex) /\
    ((0 < N)%nat -> forall mu, ergodic_distribution_iid g solve m dr grid dp = Ok (Pi, mu) <->
       solve N (fun i j => if Nat.eqb i (N - 1) then 1 else mget Pi j i - (if Nat.eqb i j then 1 else 0))
             (fun i => if Nat.eqb i (N - 1) then 1 else 0) = Ok mu).
Proof. exact ergodic_iid_no_node. Qed.
Print Assumptions C122_ergodic_iid.

(** A driving path shorter than the horizon: IndexError.  A longer one: ValueError when the model has auxiliary equations,
    otherwise its first dates are used. *)
Theorem C122_driving_path :
  forall rng seeded rand skip md dr dflt (a : sim_args rng) r T m,
    sa_driving a = DPath T m -> (1 <= sa_T a)%nat -> (forall m s, exists x, ru_ms dr m s = Ok x) ->
    ((T < sa_T a)%nat -> fst (simulate seeded rand skip md dr dflt a r) = Err ExcIndex) /\
    ((sa_T a < T)%nat -> forall aux, sm_aux md = Some aux ->
       fst (simulate seeded rand skip md dr dflt a r) = Err ExcValue) /\
    ((sa_T a < T)%nat -> sm_aux md = None ->
       exists o, fst (simulate seeded rand skip md dr dflt a r) = Ok o).
Proof. exact driven_path. Qed.
Print Assumptions C122_driving_path.

(** A driving path of indices must have the length of the horizon. *)
Theorem C122_driving_indices :
  forall rng seeded rand skip md dr dflt (a : sim_args rng) r T i nodes,
    sa_driving a = DIndices T i -> (1 <= sa_T a)%nat -> (0 < sa_N a)%nat ->
    ru_nodes dr = Ok nodes -> (forall t n, (t < T)%nat -> (n < sa_N a)%nat -> (i t n < nrow nodes)%nat) ->
    (forall i s, exists x, ru_is dr i s = Ok x) ->
    ((T < sa_T a)%nat -> fst (simulate seeded rand skip md dr dflt a r) = Err ExcIndex) /\
    ((sa_T a < T)%nat -> fst (simulate seeded rand skip md dr dflt a r) = Err ExcValue).
Proof. exact driven_indices. Qed.
Print Assumptions C122_driving_indices.

(** Expansions, maps of functions and rules meeting the hypotheses. *)
Example C122_example2 :
  (exists o, te_eval1 (TE [1; 2] [3] [Nda [1; 2]%nat (fun _ => 1)]) [0; 0] = Ok o) /\
  te_eval1 (TE [1; 2] [3] [Nda [2; 1]%nat (fun _ => 1)]) [0; 0] = Err ExcValue /\
  x_bounds [("controls_ub"%string, 1%nat)] = Err ExcKey /\
  (exists (a : sim_args unit) (dr : rule),
     sa_driving a = DIndices 3 (fun _ _ => 0%nat) /\ sa_T a = 2%nat /\ sa_N a = 1%nat /\
     ru_nodes dr = Ok (Mat 1 1 (fun _ _ => 0)) /\ (forall i s, exists x, ru_is dr i s = Ok x) /\
     (forall m s, exists x, ru_ms dr m s = Ok x)).
Proof.
  split; [eexists; reflexivity|]. split; [reflexivity|]. split; [reflexivity|].
  exists (SimArgs None 1 2 None None None (DIndices 3 (fun _ _ => 0%nat)) 0%Z true),
    {| ru_is := fun _ _ => Ok [0]; ru_ms := fun _ _ => Ok [0]; ru_nodes := Ok (Mat 1 1 (fun _ _ => 0)) |}.
  repeat split; try (intros; eexists; reflexivity).
Qed.
