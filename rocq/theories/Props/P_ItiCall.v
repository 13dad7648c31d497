(** C144: the options of improved time iteration. *)
From Coq Require Import String Reals List Arith Lia Lra.
From Verif.Base Require Import Prelude Arrays Ext.
From Verif.Spec Require Import Complementarity Euler ImprovedTimeIteration ItiCall NewtonStep.
From Verif.Model Require Import Discretization Grids Processes DecisionRule NumDiff TimeIteration TimeIterationCall
  ImprovedTimeIteration Bruteforce ItiCall.
From Verif.Proofs Require Import TimeIterationProofs TiCallProofs TiCallSim ImprovedTimeIterationProofs ItiCallProofs ItiGmres.
Import ListNotations.
Open Scope R_scope.

(** Whatever the options and the inversion: the process, the start, the constraints and the interpolation are
    the ones designated; every update is a pass of the loop; N, f_x, d_x and L are those of the last rule
    whose residuals were computed, which is the returned one if convergence is reported and the one before
    it otherwise. *)
Theorem C144_run : forall spline spline_ms nan gmres eigs md a rule dt,
    iti_call spline spline_ms nan gmres eigs md a = Ok (rule, Some dt) ->
    exists k d c0 lb ub compl p tot J,
      tm_bounds md = Some (lb, ub) /\ iti_process_used md a d /\ interp_wanted a k /\ starts_at md a d c0 /\
      (compl = true <-> constraints_imposed a) /\
      sr_process rule = d /\ sr_interp rule = k /\
      let s := endo_nodes (tm_endo_grid md) in
      let n_x := length (tm_x0 md) in
      let n_m := Nat.max (ex_n d) 1 in
      let ip := rule_ijs spline spline_ms k (tm_exo_grid md) (tm_endo_grid md) d in
      let l := fun i n => lb (ex_node d i) (nth n s []) in
      let u := fun i n => ub (ex_node d i) (nth n s []) in
      let err := error_at (tm_g md) (tm_f md) d s n_x ip l u compl nan in
      let step := call_step (tm_g md) (tm_f md) d s n_x ip l u compl nan gmres (ia_tol a) (ia_smaxit a) (ia_invmethod a) in
      let pass := pass_by err (fun x t => exists J, step x = Ok (t, J)) (ia_maxbsteps a) in
      (id_N dt < ia_maxit a)%nat /\
      updates (fun x y => ia_tol a <= err x /\ pass x y) (id_N dt) c0 p /\
      id_f_x dt = err p /\ step p = Ok (tot, J) /\ id_d_x dt = tnorm n_m (length s) n_x tot /\
      id_L dt = op_apply (fun q i j S c => nth c (ip q i j S) 0) n_m (dp_n (ex_dp d) 0) n_x J
                  (fun i j n => nth n (next_states (tm_g md) d s n_x p i j) []) /\
      id_compl dt = compl /\
      (id_radius dt = None <-> ia_radius a = false) /\
      (id_converged dt = true -> sr_values rule = p /\ err p < ia_tol a) /\
      (id_converged dt = false -> S (id_N dt) = ia_maxit a /\ ia_tol a <= err p /\ pass p (sr_values rule)).
Proof. exact call_run. Qed.
Print Assumptions C144_run.

(** Unless invmethod is "gmres", this is the run C30, C31, C32 and C141 are about. *)
Theorem C144_series : forall spline spline_ms nan gmres eigs md a rule dt,
    iti_call spline spline_ms nan gmres eigs md a = Ok (rule, Some dt) -> ia_invmethod a <> "gmres"%string ->
    exists k d c0 lb ub compl r,
      tm_bounds md = Some (lb, ub) /\ iti_process_used md a d /\ interp_wanted a k /\ starts_at md a d c0 /\
      (compl = true <-> constraints_imposed a) /\
      improved_time_iteration (tm_g md) (tm_f md) d (endo_nodes (tm_endo_grid md)) (length (tm_x0 md))
        (rule_ijs spline spline_ms k (tm_exo_grid md) (tm_endo_grid md) d)
        (fun i n => lb (ex_node d i) (nth n (endo_nodes (tm_endo_grid md)) []))
        (fun i n => ub (ex_node d i) (nth n (endo_nodes (tm_endo_grid md)) [])) compl nan
        (ia_tol a) (ia_maxbsteps a) (ia_smaxit a) (ia_maxit a) c0 = Ok r /\
      sr_process rule = d /\ sr_interp rule = k /\ sr_values rule = iti_x r /\
      id_N dt = iti_N r /\ id_f_x dt = iti_f_x r /\ id_d_x dt = iti_d_x r /\ id_converged dt = iti_converged r.
Proof. exact call_series. Qed.
Print Assumptions C144_series.

(** Reported convergence does not depend on how the Newton step was computed: whatever gmres returns, the
    equilibrium conditions hold at the nodes. *)
Theorem C144_converged : forall spline spline_ms nan gmres eigs md a rule dt,
    iti_call spline spline_ms nan gmres eigs md a = Ok (rule, Some dt) -> id_converged dt = true ->
    forall d, iti_process_used md a d ->
    (forall i, (i < ex_n d)%nat -> dp_n (ex_dp d) i = dp_n (ex_dp d) 0) ->
    exists k lb ub, interp_wanted a k /\ tm_bounds md = Some (lb, ub) /\ id_f_x dt < ia_tol a /\
    let s := endo_nodes (tm_endo_grid md) in
    let n_x := length (tm_x0 md) in
    let x := sr_values rule in
    forall i n c, (i < ex_n d)%nat -> (n < length s)%nat -> (c < n_x)%nat ->
      let e := euler (tm_g md) (tm_f md) (dp_n (ex_dp d) i) (dp_weight (ex_dp d) i) (dp_node (ex_dp d) i)
                 (rule_ijs spline spline_ms k (tm_exo_grid md) (tm_endo_grid md) d x i)
                 (ex_node d i) (nth n s []) (at_node n_x x i n) c in
      let l := lb (ex_node d i) (nth n s []) c in
      let u := ub (ex_node d i) (nth n s []) c in
      (~ constraints_imposed a -> Rabs e <= id_f_x dt) /\
      (constraints_imposed a -> l <> PInf -> u <> MInf -> ext_le l u -> mcp_approx (3 * ia_tol a) l u (x i n c) e).
Proof. exact call_converged. Qed.
Print Assumptions C144_converged.

(** maxit=0: an error if details are wanted, otherwise the initial rule. *)
Theorem C144_no_pass : forall spline spline_ms nan gmres eigs md a rule det,
    iti_call spline spline_ms nan gmres eigs md a = Ok (rule, det) -> ia_maxit a = 0%nat ->
    ia_details a = false /\ det = None /\ exists d, iti_process_used md a d /\ starts_at md a d (sr_values rule).
Proof. exact call_no_pass. Qed.
Print Assumptions C144_no_pass.

(** With details, the same call raises NameError. *)
Theorem C144_no_details : forall spline spline_ms nan gmres eigs md dr0 ig me pr int mu mb tol sm rad inv co rule det,
    iti_call spline spline_ms nan gmres eigs md (ItiArgs dr0 false ig me pr int mu mb tol sm 0 rad inv co) = Ok (rule, det) ->
    iti_call spline spline_ms nan gmres eigs md (ItiArgs dr0 true ig me pr int mu mb tol sm 0 rad inv co) = Err ExcName.
Proof. exact no_pass_details. Qed.
Print Assumptions C144_no_details.

(** With invmethod="gmres": unless scipy's gmres reports a failure (its code is not read), the Newton system is solved
    up to [D rest], where the Euclidean norm of [rest] is at most a hundredth of the current error times that of D^-1 r. *)
Theorem C144_gmres : forall g f d s n_x interpolate lb ub compl nan gmres tol smaxit x tot J,
    let n_m := Nat.max (ex_n d) 1 in
    meets_tolerance (n_m * length s * n_x) gmres ->
    call_step g f d s n_x interpolate lb ub compl nan gmres tol smaxit "gmres" x = Ok (tot, J) ->
    let D := iti_dres_c g f d s n_x interpolate lb ub compl nan x in
    let Jx := iti_jres_c g f d s n_x interpolate lb ub compl nan x in
    let r := iti_res g f d s n_x interpolate lb ub compl nan x in
    let fut := fun i j n => nth n (next_states g d s n_x x i j) [] in
    let ev := fun (p : tensor) i j S l => nth l (interpolate p i j S) 0 in
    let err := error_at g f d s n_x interpolate lb ub compl nan x in
    exists b op, (forall i n k, (i < n_m)%nat -> (n < length s)%nat -> (k < n_x)%nat -> present_effect n_x D b i n k = r i n k) /\
      (snd (gmres (err / 100) op (flatten (length s) n_x b)) = 0%nat ->
       exists rest, newton_system n_m (dp_n (ex_dp d) 0) (length s) n_x ev D Jx fut r tot (present_effect n_x D rest) /\
         norm2 n_m (length s) n_x rest <= err / 100 * norm2 n_m (length s) n_x b).
Proof. exact gmres_accurate. Qed.
Print Assumptions C144_gmres.

(** A solver that only tries the right-hand side, and solves the systems without future effects. *)
Example C144_gmres_case : forall n, meets_tolerance n (lazy_gmres n) /\
  forall tol b, 0 <= tol -> lazy_gmres n tol (fun y => y) b = (b, 0%nat).
Proof. intros n. split; [apply lazy_meets | intros; now apply lazy_solves]. Qed.

(** The equation x = 2, from x = 0. *)
Example C144_case : forall spline spline_ms nan gmres eigs, exists rule dt,
    iti_call spline spline_ms nan gmres eigs two_model (two_args "iti") = Ok (rule, Some dt) /\
    id_converged dt = true /\ id_N dt = 1%nat /\ sr_values rule 0%nat 0%nat 0%nat = 2 /\ id_f_x dt = 0.
Proof. exact two_run. Qed.
Example C144_no_pass_case : forall spline spline_ms nan gmres eigs, exists rule,
    iti_call spline spline_ms nan gmres eigs two_model
      (ItiArgs NoStart false true "jac" None "cubic" 2 10 (1 / 1000) 5 0 false "iti" None) = Ok (rule, None).
Proof. intros. eexists. reflexivity. Qed.

(** Refuted: "ignore_constraints=True solves a model without constraints".  A model without them is refused
    whatever the options, although time_iteration solves it. *)
Theorem C144_no_bounds_refuted :
  (forall spline spline_ms nan gmres eigs md a, tm_bounds md = None -> iti_call spline spline_ms nan gmres eigs md a = Err ExcKey) /\
  tm_bounds own_model = None /\
  (forall spline spline_ms nan, exists rule dt,
     time_iteration_call spline spline_ms diag_solve nan own_model own_args = Ok (rule, Some dt)).
Proof.
  split; [exact call_no_bounds|]. split; [reflexivity|]. intros spline spline_ms nan.
  destruct (own_run spline spline_ms nan) as (rule & dt & E & _). exists rule, dt. exact E.
Qed.
Print Assumptions C144_no_bounds_refuted.

(** Refuted: "any solution may be the initial guess".  The result of an algorithm, a first-order rule or a
    CustomDR is refused; time_iteration calls the guess and accepts them. *)
Theorem C144_guess_refuted : forall spline spline_ms nan gmres eigs md a,
    tm_bounds md <> None -> (exists k, interp_wanted a k) -> ia_dr0 a = StartOther ->
    iti_call spline spline_ms nan gmres eigs md a = Err ExcAttribute.
Proof. exact call_other_start. Qed.
Print Assumptions C144_guess_refuted.

(** Refuted: "method and mu are options".  They change nothing. *)
Theorem C144_unread_refuted : forall spline spline_ms nan gmres eigs md a m1 m2,
    let b := ItiArgs (ia_dr0 a) (ia_details a) (ia_ignore a) m1 (ia_process a) (ia_interp a) m2 (ia_maxbsteps a) (ia_tol a)
               (ia_smaxit a) (ia_maxit a) (ia_radius a) (ia_invmethod a) (ia_compl a) in
    iti_call spline spline_ms nan gmres eigs md b = iti_call spline spline_ms nan gmres eigs md a.
Proof. exact call_unread. Qed.
Print Assumptions C144_unread_refuted.

(** Refuted: "a given process is followed everywhere": as in C143, the grids of the rule are the model's. *)
Theorem C144_grid_refuted : forall spline spline_ms nan gmres eigs md a rule det,
    iti_call spline spline_ms nan gmres eigs md a = Ok (rule, det) ->
    sr_exo_grid rule = tm_exo_grid md /\ sr_endo_grid rule = tm_endo_grid md.
Proof. exact call_grids. Qed.
Print Assumptions C144_grid_refuted.
