(** C40-C42, C94-C99: simulations and tables (dolo/algos/simulations.py). *)
From Coq Require Import String Reals List Arith ZArith Lra.
From Verif.Base Require Import Prelude Arrays.
From Verif.Model Require Import Discretization Grids Processes DecisionRule Simulation.
From Verif.Spec Require Import Simulation.
From Verif.Proofs Require Import SimulationProofs SimulationFinal.
Import ListNotations.
Open Scope R_scope.

(** C40, what holds of every simulation that returns: it reports the exogenous values it was driven by, it
    starts at [s0] (calibrated states by default), its controls are the decision rule at each date, and
    states follow the transition function with exogenous values lagged by one period.
    Missing: the timing of the law of motion (see C40_refuted). *)
Theorem C40_simulate_partial :
  forall (rng : Type) (seeded : Z -> rng) rand skip (md : sim_model) (dr : rule) (dflt : sim_process rng) a r out r',
    simulate seeded rand skip md dr dflt a r = (Ok out, r') ->
    so_T out = sa_T a /\ so_N out = sa_N a /\
    exists ii m before s x,
      exogenous_source rand skip md dr dflt a r ii m before /\
      reported md out ii m s x /\
      starts_at (orelse (sa_s0 a) (sm_s md)) (sa_N a) s /\
      rule_followed dr (sa_T a) (sa_N a) ii m s x /\
      lagged_law (sm_g md) (sa_T a) (sa_N a) before m s x.
Proof. exact simulate_spec. Qed.
Print Assumptions C40_simulate_partial.

(** With constant exogenous values the timing does not matter. *)
Theorem C40_constant_partial :
  forall (md : sim_model) T N m mbar before s x,
    (forall t n, (t < T)%nat -> (n < N)%nat -> m t n = mbar) -> (forall n, before n = mbar) ->
    lagged_law (sm_g md) T N before m s x -> law_of_motion (sm_g md) T N m s x.
Proof. exact constant_law. Qed.
Print Assumptions C40_constant_partial.

(** C40 fails: with the transition "next state = next shock" and shocks 0, 1, 2, the reported states do
    not satisfy the law of motion. *)
Theorem C40_refuted :
  forall (rng : Type) (seeded : Z -> rng) rand skip dflt r,
    exists out r', simulate seeded rand skip shock_model (zero_rule no_nodes) dflt ramp_args r = (Ok out, r') /\
      forall s x, reported shock_model out None ramp s x ->
        ~ law_of_motion (sm_g shock_model) 3 1 ramp s x.
Proof. exact timing_wrong. Qed.
Print Assumptions C40_refuted.

(** Simulations do return: whenever the rule is defined everywhere and the path given has [T] rows. *)
Example C40_returns :
  forall (rng : Type) (seeded : Z -> rng) rand skip (md : sim_model) (dr : rule) dflt a p r,
    sa_driving a = DPath (sa_T a) p -> (1 <= sa_T a)%nat -> (forall m s, exists x, ru_ms dr m s = Ok x) ->
    exists out, simulate seeded rand skip md dr dflt a r = (Ok out, seeded (sa_seed a)).
Proof. exact simulate_path_ok. Qed.

(** C41: the index found is that of the first equal row. *)
Theorem C41_find_index :
  forall N T sim values ind,
    find_index N T sim values = Ok ind ->
    forall n t, (n < N)%nat -> (t < T)%nat -> first_equal_row values (sim n t) (ind n t).
Proof. exact find_index_spec. Qed.
Print Assumptions C41_find_index.

(** It succeeds exactly when every simulated value is one of the rows, ... *)
Theorem C41_found :
  forall N T sim values,
    (exists ind, find_index N T sim values = Ok ind) <->
    (forall n t, (n < N)%nat -> (t < T)%nat -> exists i, (i < nrow values)%nat /\ row values i = sim n t).
Proof. exact find_index_ok. Qed.
Print Assumptions C41_found.

(** ... and raises IndexError otherwise. *)
Theorem C41_error : forall N T sim values e, find_index N T sim values = Err e -> e = ExcIndex.
Proof. exact find_index_error. Qed.
Print Assumptions C41_error.

Example C41_nonvacuous : exists ind,
    find_index 2 1 (fun n _ => [INR (1 - n)]) (fst two_states) = Ok ind.
Proof.
  apply find_index_ok. intros n t Hn Ht. exists (1 - n)%nat. split; [|reflexivity].
  destruct n; repeat constructor.
Qed.

(** C42: a table starting from floats has one row per step; in row [k] the requested state takes the
    [k]-th of the evenly spaced values between the bounds, other states keep the value they have in [s0],
    and controls are those of the decision rule evaluated on these states. *)
Theorem C42_tabulate_partial :
  forall md dr dp domain a out,
    tabulate md dr dp domain a = Ok out ->
    forall ints s0, orelse (ta_s0 a) (false, sm_s md) = (ints, s0) -> ints = false ->
    exists index lo hi v m svec xvec,
      nth_error (sm_states md) index = Some (ta_state a) /\
      bounds_from dr domain index (ta_bounds a) lo hi /\
      evenly_spaced lo hi (ta_steps a) v /\
      length svec = ta_steps a /\ length xvec = ta_steps a /\
      (forall k, (k < ta_steps a)%nat -> only_changed s0 (nth k svec []) index (v k)) /\
      evaluated_at md dr dp (ta_i0 a) (ta_m0 a) svec m xvec /\
      length (to_rows out) = ta_steps a /\
      to_names out = sm_exogenous md ++ sm_states md ++ sm_controls md ++
                     (match sm_aux md with Some _ => sm_auxiliaries md | None => [] end) /\
      (forall k, (k < ta_steps a)%nat ->
         nth k (to_rows out) [] =
         m ++ nth k svec [] ++ nth k xvec [] ++
         (match sm_aux md with Some aux => aux m (nth k svec []) (nth k xvec []) | None => [] end)).
Proof. exact tabulate_spec. Qed.
Print Assumptions C42_tabulate_partial.

Example C42_returns :
  forall md dr dp domain a ints s0,
    In (ta_state a) (sm_states md) -> (1 <= ta_steps a)%nat ->
    (exists b, ta_bounds a = Some b) ->
    orelse (ta_s0 a) (false, sm_s md) = (ints, s0) -> length s0 = length (sm_states md) ->
    (exists i m, ta_i0 a = Some i /\ tp_node dp i = Ok m) ->
    (forall i svec, exists xvec, tr_is dr i svec = Ok xvec /\ length xvec = length svec) ->
    exists out, tabulate md dr dp domain a = Ok out.
Proof. exact tabulate_ok. Qed.

(** Started from an array of integers, values of the requested state are truncated: between 0 and 1 in
    three steps, the second row has 0 instead of 1/2. *)
Theorem C42_refuted : exists out,
    tabulate shock_model unit_tab_rule one_node (Err ExcAttribute) int_args = Ok out /\
    value_of (to_names out) (nth 1 (to_rows out) []) "s" = Some 0.
Proof. exact tabulate_integers. Qed.
Print Assumptions C42_refuted.

(** A rule whose exogenous grid is Cartesian can never be tabulated. *)
Theorem C42_cartesian_refuted :
  forall el ec exo endo k c lo hi md dp domain a,
    (exists u, exo = GUniform u) \/ (exists u, exo = GNonUniform u) ->
    (2 <= ta_steps a)%nat ->
    is_err (tabulate md (grid_tab_rule el ec exo endo k c lo hi) dp domain a).
Proof. exact tabulate_cartesian. Qed.
Print Assumptions C42_cartesian_refuted.

(** C94: started at a rest point of the rule and the transition, a simulation with constant exogenous
    values stays there at every date; given path. *)
Theorem C94_rest_path :
  forall (rng : Type) (seeded : Z -> rng) rand skip (md : sim_model) (dr : rule) dflt a T mbar sbar xbar r out r',
    sa_driving a = DPath T (fun _ _ => mbar) -> orelse (sa_s0 a) (sm_s md) = sbar ->
    ru_ms dr mbar sbar = Ok xbar -> sm_g md mbar sbar xbar mbar = sbar ->
    simulate seeded rand skip md dr dflt a r = (Ok out, r') ->
    reported md out None (fun _ _ => mbar) (fun _ _ => sbar) (fun _ _ => xbar).
Proof. exact rest_driven. Qed.
Print Assumptions C94_rest_path.

(** The same for a Markov chain with stochastic=False. *)
Theorem C94_rest_chain :
  forall (rng : Type) (seeded : Z -> rng) rand skip (md : sim_model) (dr : rule) dflt a c sbar xbar r out r',
    sa_driving a = DNone -> orelse (sa_process a) dflt = SChain c -> sa_stochastic a = false ->
    distinct_rows (fst c) ->
    orelse (sa_s0 a) (sm_s md) = sbar ->
    let i0 := orelse (sa_i0 a) 0%nat in
    let mbar := row (fst c) i0 in
    ru_is dr (Some i0) sbar = Ok xbar -> sm_g md mbar sbar xbar mbar = sbar ->
    simulate seeded rand skip md dr dflt a r = (Ok out, r') ->
    reported md out (Some (fun _ _ => i0)) (fun _ _ => mbar) (fun _ _ => sbar) (fun _ _ => xbar).
Proof. exact rest_chain. Qed.
Print Assumptions C94_rest_chain.

(** A rest point that is one for a single value of the shock. *)
Example C94_nonvacuous : forall (seeded : Z -> unit) dflt, exists out r',
    simulate seeded (fun _ _ => 0) (fun r _ => r) drift_model (zero_rule no_nodes) dflt
      (SimArgs None 2 5 None None None (DPath 5 (fun _ _ => [1])) 42 true) tt = (Ok out, r') /\
    sm_g drift_model [1] [7] [0] [1] = [7].
Proof.
  intros.
  destruct (simulate_path_ok unit seeded (fun _ _ => 0) (fun r _ => r) drift_model (zero_rule no_nodes) dflt
      (SimArgs None 2 5 None None None (DPath 5 (fun _ _ => [1])) 42 true) (fun _ _ => [1]) tt eq_refl) as [out E].
  - cbn. repeat constructor.
  - intros. eexists. reflexivity.
  - exists out, (seeded 42%Z). split; [exact E|]. cbn. f_equal. lra.
Qed.

(** C95: the seed does not determine the simulation: whatever the seed and what seeding does, two states of
    the generator give different results. *)
Theorem C95_refuted : forall seeded : Z -> R, exists r1 r2 out1 out2 r1' r2',
    draw_sim seeded r1 = (Ok out1, r1') /\ draw_sim seeded r2 = (Ok out2, r2') /\
    so_row out1 1%nat 0%nat <> so_row out2 1%nat 0%nat.
Proof. exact seed_useless. Qed.
Print Assumptions C95_refuted.

(** What the seed does: a call that returns leaves the generator just seeded, so that the following call
    is reproducible. *)
Theorem C95_next_call_partial :
  forall (rng : Type) (seeded : Z -> rng) rand skip (md : sim_model) (dr : rule) dflt a r out r',
    simulate seeded rand skip md dr dflt a r = (Ok out, r') -> r' = seeded (sa_seed a).
Proof. exact simulate_rng. Qed.
Print Assumptions C95_next_call_partial.

(** Driven by a given path, results do not depend on the generator. *)
Theorem C95_driven_partial :
  forall (rng : Type) (seeded : Z -> rng) rand skip (md : sim_model) (dr : rule) dflt a r r',
    sa_driving a <> DNone ->
    fst (simulate seeded rand skip md dr dflt a r) = fst (simulate seeded rand skip md dr dflt a r').
Proof. exact simulate_driven_rng. Qed.
Print Assumptions C95_driven_partial.

Example C95_nonvacuous : forall seeded r, 0 <= r < 1 ->
    exists out r', draw_sim seeded r = (Ok out, r') /\
      value_of (so_names out) (so_row out 1%nat 0%nat) "_i_m" = Some (if Rlt_dec r (1 / 2) then 0 else 1).
Proof. exact draw_index. Qed.

(** C96: for a chain whose nodes are distinct, the column "_i_m" is the state of the chain. *)
Theorem C96_index_partial :
  forall (rng : Type) (seeded : Z -> rng) rand skip (md : sim_model) (dr : rule) dflt a c r out r',
    sa_driving a = DNone -> orelse (sa_process a) dflt = SChain c -> distinct_rows (fst c) ->
    simulate seeded rand skip md dr dflt a r = (Ok out, r') ->
    let i0 := orelse (sa_i0 a) 0%nat in
    exists inds,
      (if sa_stochastic a
       then simulate_markov_chain (fst c) (snd c) (sa_N a) (sa_T a) (fun _ => i0) false (rand r) = Ok inds
       else inds = fun _ _ => i0) /\
      forall t n, (t < sa_T a)%nat -> (n < sa_N a)%nat ->
        value_of (so_names out) (so_row out t n) "_i_m" = Some (INR (inds t n)).
Proof. exact index_reported. Qed.
Print Assumptions C96_index_partial.

(** Not so when two nodes are equal: a constant process with two nodes, started at node 1, is reported at
    node 0. *)
Theorem C96_refuted : forall (rng : Type) (seeded : Z -> rng) rand skip dflt r,
    exists out r', simulate seeded rand skip shock_model (zero_rule no_nodes) dflt const_args r = (Ok out, r') /\
      value_of (so_names out) (so_row out 0%nat 0%nat) "_i_m" = Some 0.
Proof. exact index_wrong. Qed.
Print Assumptions C96_refuted.

(** C97: what tabulate_2d returns, when the rule accepts a single point. *)
Theorem C97_tabulate_2d_partial :
  forall md is1 domain states i0 s0arg nx ny out s0,
    tabulate_2d md is1 domain states i0 s0arg nx ny = Ok out ->
    orelse s0arg (false, sm_s md) = (false, s0) ->
    exists v w ix iy dv dw,
      orelse states (sm_states md) = [v; w] /\
      nth_error (sm_states md) ix = Some v /\ nth_error (sm_states md) iy = Some w /\
      domain v = Ok dv /\ domain w = Ok dw /\
      (ix <> iy -> forall a b, (a < nx)%nat -> (b < ny)%nat ->
         exists s x, out a b = s ++ x /\ is1 i0 s = Ok x /\
           two_changed s0 s ix iy (linspace (fst dv) (snd dv) nx a) (linspace (fst dw) (snd dw) ny b)).
Proof. exact tabulate_2d_spec. Qed.
Print Assumptions C97_tabulate_2d_partial.

Example C97_returns :
  forall md x0 domain v w i0 nx ny s0,
    sm_states md = [v; w] -> sm_s md = s0 -> length s0 = 2%nat -> v <> w ->
    (forall u, exists d, domain u = Ok d) ->
    exists out, tabulate_2d md (constant_is1 x0) domain None i0 None nx ny = Ok out.
Proof. exact tabulate_2d_constant. Qed.

(** The rules returned by the solution algorithms never do: it always raises. *)
Theorem C97_refuted : forall md domain states i0 s0 nx ny,
    (1 <= nx)%nat -> (1 <= ny)%nat -> is_err (tabulate_2d md grid_is1 domain states i0 s0 nx ny).
Proof. exact tabulate_2d_grid. Qed.
Print Assumptions C97_refuted.

(** C98: the impulse response of a model with iid shocks. *)
Theorem C98_response_partial :
  forall (rng : Type) (seeded : Z -> rng) rand skip (md : sim_model) (dr : rule) dflt i T impulse seed r out r',
    response seeded rand skip md dr dflt KIid (Some i) T impulse seed r = (Ok out, r') ->
    so_T out = T /\ so_N out = 1%nat /\ exists s x,
      reported md out None (impulse_path md i impulse) s x /\
      starts_at (sm_s md) 1 s /\
      rule_followed dr T 1 None (impulse_path md i impulse) s x /\
      lagged_law (sm_g md) T 1 (impulse_path md i impulse 0%nat) (impulse_path md i impulse) s x.
Proof. exact response_spec. Qed.
Print Assumptions C98_response_partial.

Example C98_returns :
  forall (rng : Type) (seeded : Z -> rng) rand skip (md : sim_model) (dr : rule) dflt i T impulse seed r,
    (2 <= T)%nat -> (forall m s, exists x, ru_ms dr m s = Ok x) ->
    exists out r', response seeded rand skip md dr dflt KIid (Some i) T impulse seed r = (Ok out, r').
Proof. exact response_ok. Qed.

(** It always raises for AR1 and VAR1 processes. *)
Theorem C98_persistent_refuted :
  forall (rng : Type) (seeded : Z -> rng) rand skip (md : sim_model) (dr : rule) dflt kind i T impulse seed r,
    kind <> KIid -> is_err (fst (response seeded rand skip md dr dflt kind i T impulse seed r)).
Proof. exact response_persistent. Qed.
Print Assumptions C98_persistent_refuted.

(** At the date of the shock (date 1) the states do not depend on its size. *)
Theorem C98_late_refuted :
  forall (rng : Type) (seeded : Z -> rng) rand skip (md : sim_model) (dr : rule) dflt
         i T imp1 imp2 seed r1 r2 out1 out2 r1' r2',
    (2 <= T)%nat ->
    response seeded rand skip md dr dflt KIid (Some i) T imp1 seed r1 = (Ok out1, r1') ->
    response seeded rand skip md dr dflt KIid (Some i) T imp2 seed r2 = (Ok out2, r2') ->
    exists s1 x1 s2 x2,
      reported md out1 None (impulse_path md i imp1) s1 x1 /\
      reported md out2 None (impulse_path md i imp2) s2 x2 /\
      s1 0%nat 0%nat = s2 0%nat 0%nat /\ s1 1%nat 0%nat = s2 1%nat 0%nat.
Proof. exact response_late. Qed.
Print Assumptions C98_late_refuted.

(** C99: the default index of tabulate is in range, with as many nodes after it as before, or one more. *)
Theorem C99_middle : forall n, (1 <= n)%nat ->
    (middle n < n)%nat /\ (n - 1 - middle n = middle n \/ n - 1 - middle n = middle n + 1)%nat.
Proof. exact middle_spec. Qed.
Print Assumptions C99_middle.

Example C99_nonvacuous : middle 5 = 2%nat /\ middle 4 = 1%nat /\ middle 1 = 0%nat.
Proof. repeat split. Qed.
