(** C153: the options of [value_iteration], and what it returns. *)
From Coq Require Import String Reals List Arith Bool Lia Lra.
From Verif Require Import Base.Prelude Base.Arrays Proofs.ViCallProofs Proofs.ValueIterationProofs
  Spec.Euler Spec.Bellman Spec.ValueIteration Spec.Convergence Model.Grids Model.Distributions Model.Processes
  Model.DecisionRule Model.TimeIteration Model.TimeIterationCall Model.ImprovedTimeIteration Model.ValueIteration
  Model.EvaluateCall Spec.EvaluateCall Model.ViCall Spec.ViCall.
Import ListNotations.
Open Scope R_scope.

(** What a call returns, for models with a Markov chain or i.i.d. shocks: two cubic rules on the grids of the model, one with
    the controls [x] and one with the values [v].  The values are felicity plus discounted expected value of following
    [x] today, the value next period being [w].  [w] is the value of the policy [x0] of the pass before, by at most 2000
    successive evaluations.  [x] is optimal at every node, if the minimiser finds minima.  The errors are the distances
    of [x] to [x0] and of [v] to [w]; the loop stops before [maxit] only when the first is within 1e-5 and the second
    within [tol].  The flags of the report compare them with 1e-5 and 1e-7. *)
Theorem C153_run : forall spline spline_ms minimize, keeps_columns spline ->
  forall md g u lb ub beta c val a ans,
    discretized md -> exact_on spline (wm_endo_grid md) -> complete md g u lb ub beta c val ->
    vi_call spline spline_ms minimize md a = Ok ans ->
    let d := wm_process md in let s := endo_nodes (wm_endo_grid md) in let n_x := length (wm_x0 md) in
    let box := fun i n => combine (lb (ex_node d i) (nth n s [])) (ub (ex_node d i) (nth n s [])) in
    exists x v it xe ve,
      va_dr ans = on_grids md x /\ va_drv ans = on_grids md (fun i n _ => v i n) /\
      (1 <= it <= wa_maxit a)%nat /\ ((it < wa_maxit a)%nat -> ve <= wa_tol a /\ xe <= 1 / 100000) /\
      (if wa_details a
       then exists dt, va_details ans = Some dt /\ vd_iterations dt = it /\ vd_process dt = d /\ vd_x_err dt = xe /\ vd_v_err dt = ve /\
              vd_x_tol dt = 1 / 100000 /\ vd_v_tol dt = 1 / 10000000 /\
              (vd_x_converged dt = true <-> xe < 1 / 100000) /\ (vd_v_converged dt = true <-> ve < 1 / 10000000)
       else va_details ans = None) /\
      exists x0 w,
        distance_is (ex_n d) (length s) n_x x x0 xe /\
        distance_is (ex_n d) (length s) 1 (fun i n _ => v i n) w ve /\
        (exists vs q e, w = vs q /\
           successive g val d s n_x 1 (fun w i j S => spline 1%nat Cubic (wm_endo_grid md) (w (page (wm_exo_grid md) j)) S) x0
             (fun i j S => spline n_x Cubic (wm_endo_grid md) (x0 (page (wm_exo_grid md) j)) S) vs /\
           distance_is (ex_n d) (length s) 1 (vs (S q)) w e /\ (q < 2000)%nat /\ ((S q < 2000)%nat -> e <= 1 / 100000000)) /\
        (forall i n, (i < ex_n d)%nat -> (n < length s)%nat -> v i n = objective spline md g u beta w i (nth n s []) (at_node n_x x i n)) /\
        ((forall i n, (i < ex_n d)%nat -> (n < length s)%nat ->
            finds_minimum minimize (fun y => - objective spline md g u beta w i (nth n s []) y) (box i n) /\
            length (lb (ex_node d i) (nth n s [])) = n_x /\ length (ub (ex_node d i) (nth n s [])) = n_x) ->
         forall i n, (i < ex_n d)%nat -> (n < length s)%nat ->
           in_box (box i n) (at_node n_x x i n) /\
           forall y, in_box (box i n) y -> objective spline md g u beta w i (nth n s []) y <= v i n).
Proof. exact vi_call_run. Qed.
Print Assumptions C153_run.

(** When interpolation is K-Lipschitz in the values, beta K < 1: distance to the solution of Bellman's equation on the
    grid, and loss of following the returned controls, in terms of the reported error. *)
Theorem C153_close : forall spline spline_ms minimize, keeps_columns spline ->
  forall md g u lb ub beta c val W,
    let d := wm_process md in let s := endo_nodes (wm_endo_grid md) in let n_x := length (wm_x0 md) in
    discretized md -> exact_on spline (wm_endo_grid md) -> complete md g u lb ub beta c val ->
    index_is_point d (value_next spline md) W ->
    (forall i, (i < ex_n d)%nat -> probability (dp_n (ex_dp d) i) (dp_weight (ex_dp d) i)) ->
    maximises g u beta d s W lb ub minimize ->
    (forall i n, (i < ex_n d)%nat -> (n < length s)%nat ->
       length (lb (ex_node d i) (nth n s [])) = n_x /\ length (ub (ex_node d i) (nth n s [])) = n_x) ->
    forall K, 0 <= beta -> beta * K < 1 -> value_rule_lipschitz d (length s) W K ->
      forall a ans dt, vi_call spline spline_ms minimize md a = Ok ans -> va_details ans = Some dt ->
      exists x v, va_dr ans = on_grids md x /\ va_drv ans = on_grids md v /\
        (forall vs, bellman_solution g u beta d s W lb ub vs -> forall i n, (i < ex_n d)%nat -> (n < length s)%nat ->
           Rabs (v i n 0%nat - vs i n 0%nat) <= beta * K * vd_v_err dt / (1 - beta * K)) /\
        (forall vs vc, bellman_solution g u beta d s W lb ub vs -> value_of_controls g u beta d s n_x W x vc ->
           forall i n, (i < ex_n d)%nat -> (n < length s)%nat ->
           Rabs (vc i n 0%nat - vs i n 0%nat) <= 2 * (beta * K * vd_v_err dt / (1 - beta * K))).
Proof. intros spline spline_ms minimize Hc md g u lb ub beta c val W d s n_x. exact (vi_call_close spline spline_ms minimize Hc md g u lb ub beta c val W). Qed.
Print Assumptions C153_close.

(** When interpolation averages the values and the model's value equation is v = u + beta E v': the call succeeds, and the
    distance to the solution falls at the rate beta of each pass, down to what the tolerance of the evaluations leaves. *)
Theorem C153_reaches : forall spline spline_ms minimize, keeps_columns spline ->
  forall md g u lb ub beta c val W,
    let d := wm_process md in let s := endo_nodes (wm_endo_grid md) in let n_x := length (wm_x0 md) in
    discretized md -> exact_on spline (wm_endo_grid md) -> complete md g u lb ub beta c val ->
    index_is_point d (value_next spline md) W ->
    (forall i, (i < ex_n d)%nat -> probability (dp_n (ex_dp d) i) (dp_weight (ex_dp d) i)) ->
    maximises g u beta d s W lb ub minimize ->
    (forall i n, (i < ex_n d)%nat -> (n < length s)%nat ->
       length (lb (ex_node d i) (nth n s [])) = n_x /\ length (ub (ex_node d i) (nth n s [])) = n_x) ->
    (forall m p x v M S X V, val m p x v M S X V 0%nat = u m p x + beta * nth 0 V 0) ->
      value_rule_averages d (length s) W -> 0 <= beta < 1 ->
      forall B V,
      (forall i n y, (i < ex_n d)%nat -> (n < length s)%nat ->
         in_box (combine (lb (ex_node d i) (nth n s [])) (ub (ex_node d i) (nth n s []))) y \/ y = wm_x0 md ->
         Rabs (u (ex_node d i) (nth n s []) y) <= B) ->
      B <= (1 - beta) * V -> Rabs c <= V -> beta ^ 1999 * (2 * V) <= 1 / 100000000 ->
      (0 < ex_n d * length s * n_x)%nat ->
      forall vs, bellman_solution g u beta d s W lb ub vs ->
      forall a, (0 < wa_maxit a)%nat -> wa_details a = true ->
      exists ans v dt, vi_call spline spline_ms minimize md a = Ok ans /\ va_drv ans = on_grids md v /\ va_details ans = Some dt /\
        let gap := beta ^ (vd_iterations dt - 2) * (2 * V) + 1 / 100000000 * (1 + beta) / (1 - beta) / (1 - beta) in
        (forall i n, (i < ex_n d)%nat -> (n < length s)%nat -> Rabs (v i n 0%nat - vs i n 0%nat) <= beta * gap) /\
        vd_v_err dt <= (1 + beta) * gap.
Proof. intros spline spline_ms minimize Hc md g u lb ub beta c val W d s n_x. exact (vi_call_reaches spline spline_ms minimize Hc md g u lb ub beta c val W). Qed.
Print Assumptions C153_reaches.

(** Two states, linear interpolation, felicity x (1 + s), x in [0, 1], beta = 1/2: the solution is 2 (1 + s). *)
Example C153_example :
  keeps_columns two_spline /\ discretized two_model /\ exact_on two_spline (wm_endo_grid two_model) /\
  value_rule_lipschitz (wm_process two_model) 2 two_W 1 /\
  (forall spline_ms a, (0 < wa_maxit a)%nat -> wa_details a = true ->
     exists ans v dt, vi_call two_spline spline_ms top two_model a = Ok ans /\ va_drv ans = on_grids two_model v /\ va_details ans = Some dt /\
       forall n, (n < 2)%nat -> Rabs (v 0%nat n 0%nat - 2 * (1 + INR n)) <= 1 / 2 * ((1 / 2) ^ (vd_iterations dt - 2) * 8 + 6 / 100000000)).
Proof.
  split; [exact two_columns|]. split; [exact two_discretized|]. split; [exact two_exact|]. split; [exact two_lipschitz|]. exact two_reaches.
Qed.

(** What the call cannot do without: the functions transition, felicity, controls_lb, controls_ub and value, the symbol
    beta, exactly one value, a pass, and an exogenous grid that is not Cartesian. *)
Theorem C153_needs : forall spline spline_ms minimize md a ans, vi_call spline spline_ms minimize md a = Ok ans ->
    exists g u lb ub beta c val, complete md g u lb ub beta c val /\ (0 < wa_maxit a)%nat /\ is_cartesian (wm_exo_grid md) = false.
Proof. exact vi_call_needs. Qed.
Print Assumptions C153_needs.

(** Missing functions, parameter or values raise KeyError. *)
Theorem C153_missing : forall spline spline_ms minimize, keeps_columns spline -> forall md a,
    (wm_transition md = None \/ wm_felicity md = None \/ wm_lb md = None \/ wm_ub md = None \/ wm_beta md = None) \/
    (discretized md /\ (0 < wa_maxit a)%nat /\ (wm_v0 md = None \/ wm_value md = None)) ->
    vi_call spline spline_ms minimize md a = Err ExcKey.
Proof. exact vi_call_missing. Qed.
Print Assumptions C153_missing.

(** With [details=False] only the two rules come back, and they are the same. *)
Theorem C153_details : forall spline spline_ms minimize md a ans, vi_call spline spline_ms minimize md a = Ok ans ->
    exists ans', vi_call spline spline_ms minimize md
                   (ViArgs (wa_verbose a) (negb (wa_details a)) (wa_tol a) (wa_maxit a) (wa_howard a)) = Ok ans' /\
      va_dr ans' = va_dr ans /\ va_drv ans' = va_drv ans /\
      (wa_details a = true -> va_details ans' = None) /\ (wa_details a = false -> va_details ans = None /\ va_details ans' <> None).
Proof. exact vi_call_details. Qed.
Print Assumptions C153_details.

(** [maxit=0] does not return the first guess: NameError. *)
Theorem C153_maxit_refuted : forall spline spline_ms minimize md g u lb ub beta c val a,
    complete md g u lb ub beta c val -> wa_maxit a = 0%nat -> vi_call spline spline_ms minimize md a = Err ExcName.
Proof. exact vi_call_no_pass. Qed.
Print Assumptions C153_maxit_refuted.

(** [maxit_howard] is never read, and [verbose] does not change what comes back. *)
Theorem C153_howard_refuted : forall spline spline_ms minimize md a verbose howard,
    vi_call spline spline_ms minimize md (ViArgs verbose (wa_details a) (wa_tol a) (wa_maxit a) howard) =
    vi_call spline spline_ms minimize md a.
Proof. exact vi_call_unread. Qed.
Print Assumptions C153_howard_refuted.
