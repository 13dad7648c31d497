(** C143: the options of time iteration. *)
From Coq Require Import String Reals List Arith ZArith Lia Lra.
From Verif.Base Require Import Prelude Arrays Ext.
From Verif.Spec Require Import Product Euler TimeIteration TiCall Simulation RuleTomorrow.
From Verif.Model Require Import Discretization Grids Processes DecisionRule Newton NumDiff TimeIteration
  TimeIterationCall Simulation.
From Verif.Proofs Require Import TimeIterationProofs TiCallProofs TiCallSim RuleTomorrowProofs.
Import ListNotations.
Open Scope R_scope.

(** Whatever the options, the call solves the model for the process and the bounds they designate, and
    reports that run.  C29, C86, C87 and C114 are about it. *)
Theorem C143_run : forall spline spline_ms lsolve nan md a rule det,
    time_iteration_call spline spline_ms lsolve nan md a = Ok (rule, det) ->
    exists k d c0 b r,
      process_used md a d /\ interp_method (ta_interp a) = Ok k /\
      initial_controls d (endo_nodes (tm_endo_grid md)) (tm_x0 md) (ta_dr0 a) = Ok c0 /\
      bounds_used md a d b /\
      time_iteration (tm_g md) (tm_f md) d (endo_nodes (tm_endo_grid md)) (length (tm_x0 md))
        (rule_ijs spline spline_ms k (tm_exo_grid md) (tm_endo_grid md) d) lsolve nan
        (ta_tol a) (ta_maxit a) (ta_inner a) b c0 = Ok r /\
      sr_values rule = ti_controls r /\ sr_interp rule = k /\ sr_process rule = d /\
      (det = None <-> ta_details a = false) /\
      forall dt, det = Some dt ->
        dt_iterations dt = ti_iterations r /\ dt_compl dt = ti_compl r /\ dt_process dt = d /\
        dt_converged dt = ti_converged r /\ dt_tol dt = ta_tol a /\ dt_err dt = ti_err r /\
        (ta_trace a = false -> dt_trace dt = None).
Proof. exact call_is_run. Qed.
Print Assumptions C143_run.

(** [rule_ijs] above: tomorrow's controls when today's exogenous state is [i], tomorrow's [j] and tomorrow's states are
    the points [s].  They are what eval_ijs(i, j, s) returns for a rule with the values [x], whichever library does
    the interpolation. *)
Theorem C143_tomorrow : forall el ec pre, interpolator el -> interpolator ec -> prefilter pre ->
  forall exo n_m N n_x, exists spline spline_ms, forall endo k d x a c i j s out,
    array_of n_m N n_x x a ->
    get_coefficients pre exo endo k a = Ok c ->
    eval_ijs el ec (dp_node (ex_dp d)) exo endo k c i j s = Ok out ->
    out = map (rule_ijs spline spline_ms k exo endo d x i j) s.
Proof. exact rule_is_object. Qed.
Print Assumptions C143_tomorrow.

(** A library that returns the first entry, and the rule of two states: the value of tomorrow's state. *)
Example C143_tomorrow_case : interpolator first_entry /\ prefilter (fun _ c => Ok c) /\
  array_of 2 1 1 (fun i _ _ => INR (S i)) two_pages /\
  exists c, get_coefficients (fun _ c => Ok c) (GUnstructured (Mat 2 1 (fun i _ => INR i))) point_grid Cubic two_pages = Ok c /\
    eval_ijs first_entry first_entry (fun _ _ => [0]) (GUnstructured (Mat 2 1 (fun i _ => INR i))) point_grid Cubic c 0 1 [[5]] = Ok [[INR 2]].
Proof. exact tomorrow_case. Qed.

(** With trace=True: one rule by iteration and the returned one, each obtained from the previous one. *)
Theorem C143_trace : forall spline spline_ms lsolve nan md a rule dt,
    time_iteration_call spline spline_ms lsolve nan md a = Ok (rule, Some dt) -> ta_trace a = true ->
    exists t k d c0 b,
      dt_trace dt = Some t /\ process_used md a d /\ interp_method (ta_interp a) = Ok k /\
      initial_controls d (endo_nodes (tm_endo_grid md)) (tm_x0 md) (ta_dr0 a) = Ok c0 /\ bounds_used md a d b /\
      (forall x, In x t -> sr_exo_grid x = sr_exo_grid rule /\ sr_endo_grid x = sr_endo_grid rule /\
                           sr_interp x = k /\ sr_process x = d) /\
      run_recorded
        (fun x y => exists nit, ti_update (tm_g md) (tm_f md) d (endo_nodes (tm_endo_grid md)) (length (tm_x0 md))
           (rule_ijs spline spline_ms k (tm_exo_grid md) (tm_endo_grid md) d) lsolve nan (ta_inner a) b nit x y)
        (same_values d (length (endo_nodes (tm_endo_grid md))) (length (tm_x0 md)) c0)
        (dt_iterations dt) (sr_values rule) (map sr_values t).
Proof. exact call_trace. Qed.
Print Assumptions C143_trace.

(** A chain given to a model whose process is a chain: the result is the one of the model that has this chain,
    except for the exogenous grid of the rule. *)
Theorem C143_chain_partial : forall spline spline_ms lsolve nan md p a nodes d,
    tm_exo_grid md = GUnstructured p -> ta_process a = Some d ->
    time_iteration_call spline spline_ms lsolve nan (with_chain md nodes d) (without_process a) =
    bind (time_iteration_call spline spline_ms lsolve nan md a)
         (fun b => Ok (relocate_result (GUnstructured nodes) b)).
Proof. exact call_chain. Qed.
Print Assumptions C143_chain_partial.

(** Which remains the model's: a simulation along given indices reports the nodes of the model's own chain. *)
Theorem C143_grid_refuted : forall spline spline_ms lsolve nan md a rule det,
    time_iteration_call spline spline_ms lsolve nan md a = Ok (rule, det) ->
    sr_exo_grid rule = tm_exo_grid md /\ sr_endo_grid rule = tm_endo_grid md.
Proof. exact call_grid. Qed.
Print Assumptions C143_grid_refuted.

Theorem C143_simulated_refuted :
  forall spline spline_ms lsolve nan md a rule det p d
         (rng : Type) (seeded : Z -> rng) rand skip smd dr dflt T N s0 i0 ii seed stochastic r out r',
    time_iteration_call spline spline_ms lsolve nan md a = Ok (rule, det) ->
    tm_exo_grid md = GUnstructured p -> ta_process a = Some d ->
    (exists nodes, sr_exo_grid rule = GUnstructured nodes /\ ru_nodes dr = Ok nodes) ->
    simulate seeded rand skip smd dr dflt (SimArgs None N T s0 i0 None (DIndices T ii) seed stochastic) r = (Ok out, r') ->
    exists m s x, reported smd out (Some ii) m s x /\
      forall t n, row p (ii t n) <> ex_node d (ii t n) -> m t n <> ex_node d (ii t n).
Proof. exact simulated_nodes. Qed.
Print Assumptions C143_simulated_refuted.

(** A chain given to a model with i.i.d. shocks: whatever the state tomorrow, controls (of the default, cubic,
    rule) are read in the first. *)
Theorem C143_first_state_refuted : forall spline spline_ms endo d x y i j S,
    (forall n c, x 0%nat n c = y 0%nat n c) ->
    rule_ijs spline spline_ms Cubic GEmpty endo d x i j S = rule_ijs spline spline_ms Cubic GEmpty endo d y i j S.
Proof. exact first_state_only. Qed.
Print Assumptions C143_first_state_refuted.

(** A process with another number of nodes given to a model on Cartesian grids: values are cut in rows of
    another length than the number of controls. *)
Theorem C143_reshaped_refuted : forall pre a b x n n_x c,
    (0 < n_x)%nat -> nd_shape x = [n; prodn (u_n b); n_x] -> n <> prodn (u_n a) ->
    get_coefficients pre (GUniform a) (GUniform b) Linear x = Ok (CArr c) -> last (nd_shape c) 0%nat <> n_x.
Proof. exact uniform_reshaped. Qed.
Print Assumptions C143_reshaped_refuted.

(** A call that returns: one exogenous node and one point, the equation x = 2, a process of one's own. *)
Example C143_case : forall spline spline_ms nan, exists rule dt,
    time_iteration_call spline spline_ms diag_solve nan own_model own_args = Ok (rule, Some dt) /\
    ta_trace own_args = true /\ tm_exo_grid own_model = GUnstructured (Mat 1 1 (fun _ _ => 3)) /\
    ta_process own_args = Some one_exo /\ row (Mat 1 1 (fun _ _ => 3)) 0 <> ex_node one_exo 0.
Proof. exact own_run. Qed.
