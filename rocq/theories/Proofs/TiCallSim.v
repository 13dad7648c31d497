From Coq Require Import String Reals List Arith ZArith Lia Lra FunctionalExtensionality.
From Verif.Base Require Import Prelude Arrays Ext.
From Verif.Spec Require Import Product Euler TimeIteration TiCall Simulation.
From Verif.Model Require Import Discretization Grids Processes DecisionRule Newton NumDiff TimeIteration
  TimeIterationCall Simulation.
From Verif.Proofs Require Import TimeIterationProofs TiCallProofs SimulationProofs.
Import ListNotations.
Open Scope R_scope.

Lemma simulated_nodes :
  forall spline spline_ms lsolve nan md a rule det p d
         (rng : Type) (seeded : Z -> rng) rand skip smd dr dflt T N s0 i0 ii seed stochastic r out r',
    time_iteration_call spline spline_ms lsolve nan md a = Ok (rule, det) ->
    tm_exo_grid md = GUnstructured p -> ta_process a = Some d ->
    (exists nodes, sr_exo_grid rule = GUnstructured nodes /\ ru_nodes dr = Ok nodes) ->
    simulate seeded rand skip smd dr dflt (SimArgs None N T s0 i0 None (DIndices T ii) seed stochastic) r = (Ok out, r') ->
    exists m s x, reported smd out (Some ii) m s x /\
      forall t n, row p (ii t n) <> ex_node d (ii t n) -> m t n <> ex_node d (ii t n).
Proof.
  intros spline spline_ms lsolve nan md a rule det p d rng seeded rand skip smd dr dflt T N s0 i0 ii seed stochastic r out r'
    H Hp Ha (nodes & Hg & Hn) Hs.
  destruct (call_grid _ _ _ _ _ _ _ _ H) as [Eg _]. rewrite Hp in Eg.
  apply simulate_spec in Hs. destruct Hs as (_ & _ & j & m & before & s & x & Src & Rep & _).
  unfold exogenous_source in Src. cbn [sa_driving] in Src. destruct Src as (_ & -> & q & Eq & Em & _).
  assert (q = p) by congruence. subst q. exists m, s, x. split; [assumption|].
  intros t n Hne. rewrite Em. exact Hne.
Qed.

Lemma first_state_only : forall spline spline_ms endo d (x y : tensor) i j S,
    (forall n c, x 0%nat n c = y 0%nat n c) ->
    rule_ijs spline spline_ms Cubic GEmpty endo d x i j S = rule_ijs spline spline_ms Cubic GEmpty endo d y i j S.
Proof.
  intros spline spline_ms endo d x y i j S H. cbn [rule_ijs]. f_equal.
  apply functional_extensionality. intros n. apply functional_extensionality. intros c. apply H.
Qed.

Definition own_model : ti_model :=
  TiModel (GUnstructured (Mat 1 1 (fun _ _ => 3))) (GNonUniform {| nu_axes := [[0]]; nu_nodes := Mat 1 1 (fun _ _ => 0) |})
          {| ex_n := 1; ex_node := fun _ => [3]; ex_dp := {| dp_n := fun _ => 1%nat; dp_weight := fun _ _ => 1; dp_node := fun _ _ => [3] |} |}
          [0] (fun _ s _ _ => s) eq2 None.
Definition own_args : ti_args := TiArgs None true false true (Some one_exo) 5 10 (1 / 1000) "cubic" None.

Lemma own_run : forall spline spline_ms nan, exists rule dt,
    time_iteration_call spline spline_ms diag_solve nan own_model own_args = Ok (rule, Some dt) /\
    ta_trace own_args = true /\ tm_exo_grid own_model = GUnstructured (Mat 1 1 (fun _ _ => 3)) /\
    ta_process own_args = Some one_exo /\ row (Mat 1 1 (fun _ _ => 3)) 0 <> ex_node one_exo 0.
Proof.
  intros spline spline_ms nan.
  destruct (small_run (rule_ijs spline spline_ms Cubic (tm_exo_grid own_model) (tm_endo_grid own_model) one_exo) nan) as (r & Er & _).
  destruct (call_returns spline spline_ms diag_solve nan own_model own_args Cubic (fun _ _ c => nth c [0] 0) r) as (rule & det & E).
  - reflexivity.
  - reflexivity.
  - reflexivity.
  - cbn [own_args ta_tol ta_maxit ta_inner wants_bounds node_bounds own_model tm_bounds]. rewrite <- Er.
    assert (Ez : (fun (_ _ : nat) (c : nat) => nth c [0] 0) = (fun _ _ _ => 0)).
    { do 2 (apply functional_extensionality; intro). apply functional_extensionality. intros [|[|c]]; reflexivity. }
    rewrite Ez. reflexivity.
  - destruct det as [dt|].
    + exists rule, dt. split; [exact E|]. repeat split. unfold row. cbn. intros K. injection K as K. lra.
    + exfalso. destruct (call_is_run _ _ _ _ _ _ _ _ E) as (k & d & c0 & b & q & _ & _ & _ & _ & _ & _ & _ & _ & I & _).
      destruct I as [I _]. specialize (I eq_refl). discriminate I.
Qed.
