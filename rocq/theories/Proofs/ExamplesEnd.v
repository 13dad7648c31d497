(** The theorems on the shipped files, in the form of the properties, and cases which meet their hypotheses. *)
From Coq Require Import String Reals List ZArith Permutation Lra Lia.
From Verif Require Import Base.Prelude Base.Dict Spec.CompilerMisc Model.CompilerMisc Model.Factories Spec.Factories
  Model.ModelObject Spec.ModelObject
  Model.Examples Spec.Examples Proofs.ExamplesProofs Proofs.ExamplesFinal Proofs.ExamplesCalib
  Proofs.TriangularSolver Proofs.DefinitionOrder Proofs.ExamplesRun.
Import ListNotations.
Open Scope string_scope.
Open Scope list_scope.
Open Scope R_scope.

Lemma leaves_zbar : forall zb names, ~ In "zbar" names -> leaves [("zbar", lit zb)] names.
Proof. intros zb names H k [<-|[]]. exact H. Qed.
Lemma leaves_incl : forall kwargs l l', incl l' l -> leaves kwargs l -> leaves kwargs l'.
Proof. intros kwargs l l' I H k Hk C. exact (H k Hk (I k C)). Qed.
Lemma leaves_in : forall kwargs l k, leaves kwargs l -> In k l -> ~ In k (dkeys kwargs).
Proof. intros kwargs l k H Hi C. exact (H k C Hi). Qed.

Lemma rbc_shipped : forall v zb, 0 <= zb -> exists sol r,
  calibrate example_solve (rbc_version v) [("zbar", lit zb)] = Ok sol /\
  model_residuals tri_order true (rbc_version v) sol = Ok r /\ (all_zero r <-> zb = 0).
Proof.
  intros v zb z0. destruct (rbc_runs v zb z0) as (sol & c & HC & H1 & H2 & H3 & H4 & H5 & H6 & H7 & H8 & H9 & H10 & c0).
  destruct (rbc_steady example_solve tri_order true [("zbar", lit zb)] sol v _ _ _ _ _ _ _ _ _ _
    example_solve_right example_order_right (leaves_zbar zb rbc_targets ltac:(simpl; intuition discriminate)) HC
    H1 H2 H3 H4 H5 H6 H7 H8 H9 H10) as (r & E & Z); try lra.
  exists sol, r. auto.
Qed.

Lemma fiscal_shipped : exists sol r, calibrate example_solve fiscal_file [] = Ok sol /\
  model_residuals tri_order true fiscal_file sol = Ok r /\ all_zero r.
Proof.
  destruct fiscal_runs as (sol & c & HC & H1 & H2 & H3 & H4 & H5 & H6 & H7 & H8 & H9 & c0).
  destruct (fiscal_steady example_solve tri_order true [] sol _ _ _ _ _ _ _ _ _ example_solve_right example_order_right
    (fun k (C : In k []) => match C with end) HC H1 H2 H4 H3 H5 H6 H7 H8 H9) as (r & E & Z); try lra.
  exists sol, r. split; [exact HC|]. split; [exact E|]. apply Z. lra.
Qed.

Lemma response_iff : forall p z k m reorder v e n i,
  0 < k -> 0 < m -> 0 < chi p -> alpha p < 1 -> sigma p <> 0 -> eta p + alpha p <> 0 ->
  v <> Plain -> right_order reorder ->
  (model_function reorder true (rbc_version v) "direct_response"
     [exogenous_of v e z; states_of v z k; reals [m]; parameters_of p] = Ok (reals [n; i]) <->
   0 < n /\ 0 < consumption p z k n i /\ labour_gap p z k n i = 0 /\
   Rpower (consumption p z k n i) (- sigma p) = m).
Proof. intros. apply direct_response_iff; assumption. Qed.

Lemma expected_response :
  forall reorder keep v p e z k m n i (law : list (R * (R * R * R * R * R))) (q g1 g2 : R * R * R * R * R -> R),
  v <> Plain -> right_order reorder ->
  0 < k -> 0 < m -> 0 < chi p -> alpha p < 1 -> sigma p <> 0 -> eta p + alpha p <> 0 ->
  0 < n -> 0 < consumption p z k n i ->
  total law = 1 -> law <> [] ->
  (forall w e' z' k' n' i', In (w, (e', z', k', n', i')) law ->
     0 < k' /\ 0 < n' /\ 0 < consumption p z' k' n' i') ->
  (forall w e' z' k' n' i', In (w, (e', z', k', n', i')) law ->
     model_function reorder keep (rbc_version v) "expectation"
       [exogenous_of v e' z'; states_of v z' k'; reals [n'; i']; parameters_of p]
     = Ok (reals [q (e', z', k', n', i')])) ->
  (forall w e' z' k' n' i', In (w, (e', z', k', n', i')) law ->
     model_function reorder keep (rbc_version v) "arbitrage"
       [exogenous_of v e z; states_of v z k; reals [n; i];
        exogenous_of v e' z'; states_of v z' k'; reals [n'; i']; parameters_of p]
     = Ok (reals [g1 (e', z', k', n', i'); g2 (e', z', k', n', i')])) ->
  m = mean q law ->
  (model_function reorder true (rbc_version v) "direct_response"
     [exogenous_of v e z; states_of v z k; reals [m]; parameters_of p] = Ok (reals [n; i]) <->
   (forall o, In o law -> g1 (snd o) = 0) /\ mean g2 law = 0).
Proof.
  intros reorder keep v p e z k m n i law q g1 g2 NP RO k0 m0 x0 a1 s0 ha n0 c0 T NE SE HQ HG Em.
  apply (expected_euler reorder keep v p e z k m n i law q g1 g2); try assumption.
  intros [w [[[[e' z'] k'] n'] i']] Ho. exact (SE _ _ _ _ _ _ Ho).
Qed.

Lemma output_one : forall z, output (1/2) z 1 1 = exp z.
Proof. intros. unfold output. rewrite !Rpower_base_1. ring. Qed.

Lemma response_example : forall v, v <> Plain ->
  let p := Economy (1/2) 2 1 1 (1/2) (1/2) 0 0 1 in
  let law : list (R * (R * R * R * R * R)) := [(1/4, (0, 0, 1, 1, 1/2)); (3/4, (1, 1, 1, 1, 1/2))] in
  exists (q g1 g2 : R * R * R * R * R -> R),
  right_order tri_order /\ 0 < mean q law /\ 0 < consumption p 0 1 1 (1/2) /\ total law = 1 /\
  (forall w e' z' k' n' i', In (w, (e', z', k', n', i')) law ->
     0 < k' /\ 0 < n' /\ 0 < consumption p z' k' n' i') /\
  (forall w e' z' k' n' i', In (w, (e', z', k', n', i')) law ->
     model_function tri_order true (rbc_version v) "expectation"
       [exogenous_of v e' z'; states_of v z' k'; reals [n'; i']; parameters_of p]
     = Ok (reals [q (e', z', k', n', i')])) /\
  (forall w e' z' k' n' i', In (w, (e', z', k', n', i')) law ->
     model_function tri_order true (rbc_version v) "arbitrage"
       [exogenous_of v 0 0; states_of v 0 1; reals [1; 1/2];
        exogenous_of v e' z'; states_of v z' k'; reals [n'; i']; parameters_of p]
     = Ok (reals [g1 (e', z', k', n', i'); g2 (e', z', k', n', i')])).
Proof.
  intros v NP p law.
  exists (fun o => let '(e', z', k', n', i') := o in discounted p z' k' n' i'),
    (fun _ => labour_gap p 0 1 1 (1/2)),
    (fun o => let '(e', z', k', n', i') := o in
       1 - beta p * Rpower (consumption p 0 1 1 (1/2) / consumption p z' k' n' i') (sigma p) * gross_return p z' k' n').
  assert (E1 : 1 < exp 1) by (pose proof (exp_ineq1_le 1); lra).
  assert (C0 : 0 < consumption p 0 1 1 (1/2)) by (unfold consumption; simpl; rewrite output_one, exp_0; lra).
  assert (SE : forall w e' z' k' n' i', In (w, (e', z', k', n', i')) law ->
     0 < k' /\ 0 < n' /\ 0 < consumption p z' k' n' i').
  { intros w e' z' k' n' i' [E|[E|[]]]; injection E as <- <- <- <- <- <-;
      unfold consumption; simpl; rewrite output_one, ?exp_0; lra. }
  split; [exact example_order_right|]. split.
  { unfold mean, law, discounted, gross_return, p. simpl. rewrite !output_one, exp_0.
    pose proof (Rpower_pos (consumption (Economy (1/2) 2 1 1 (1/2) (1/2) 0 0 1) 0 1 1 (1/2)) (-(2))).
    pose proof (Rpower_pos (consumption (Economy (1/2) 2 1 1 (1/2) (1/2) 0 0 1) 1 1 1 (1/2)) (-(2))). nra. }
  split; [exact C0|]. split; [unfold total, mean, law; simpl; lra|]. split; [exact SE|]. split.
  - intros w e' z' k' n' i' H. destruct (SE _ _ _ _ _ _ H) as (k0 & n0 & c0).
    apply expectation_value; auto. exact example_order_right.
  - intros w e' z' k' n' i' H. destruct (SE _ _ _ _ _ _ H) as (k0 & n0 & c0).
    apply version_arbitrage; auto; try lra. exact example_order_right.
Qed.

Definition rbc_names (extra : string) : list string := extra :: rbc_targets.
Lemma names_tail : forall kwargs x, leaves kwargs (rbc_names x) -> leaves kwargs rbc_targets /\ ~ In x (dkeys kwargs).
Proof.
  intros kwargs x H. split; [apply (leaves_incl _ _ _ (incl_tl x (incl_refl _)) H)|].
  apply (leaves_in _ _ _ H). left; reflexivity.
Qed.

Lemma iid_response : forall solve reorder kwargs sol b a d s h ro sig n c,
  right_solver solve -> right_order reorder ->
  leaves kwargs ["m"; "chi"; "e_z"; "z"; "rk"; "w"; "k"; "y"; "i"; "c"; "p"] ->
  calibrate solve rbc_iid_file kwargs = Ok sol ->
  has sol "beta" b -> has sol "alpha" a -> has sol "delta" d -> has sol "sigma" s -> has sol "eta" h ->
  has sol "rho" ro -> has sol "sig_z" sig -> has sol "n" n -> has sol "zbar" 0 -> has sol "c" c ->
  0 < b -> 0 < a -> a < 1 -> 0 < 1 / b - 1 + d -> 0 < n -> 0 < c -> s <> 0 -> h + a <> 0 ->
  calibrated rbc_iid_file sol "controls" = rest_response reorder true rbc_iid_file sol.
Proof.
  intros solve reorder kwargs sol b a d s h ro sig n c RS RO HL HC Hb Ha Hd Hs Hh Hro Hsig Hn Hz Hc b0 a0 a1 r0 n0 c0 s0 ha.
  destruct (names_tail kwargs "m" HL) as [HL' Hm].
  exact (rbc_rest_response solve reorder true kwargs sol Iid b a d s h ro sig n 0 c RS RO HL' HC Hb Ha Hd Hs Hh Hro Hsig Hn Hz Hc
    b0 a0 a1 r0 n0 c0 eq_refl Hm eq_refl s0 ha).
Qed.

Lemma value_felicity : forall reorder keep v p e z k n i V e' z' k' n' i' V',
  v <> Plain -> right_order reorder -> 0 < k -> 0 < n -> 0 < consumption p z k n i -> 0 < k' -> 0 < n' ->
  1 - sigma p <> 0 -> 1 + eta p <> 0 ->
  exists u,
  model_function reorder keep (rbc_version v) "felicity"
    [exogenous_of v e z; states_of v z k; reals [n; i]; parameters_of p] = Ok (reals [u]) /\
  model_function reorder keep (rbc_version v) "value"
    [exogenous_of v e z; states_of v z k; reals [n; i]; reals [V];
     exogenous_of v e' z'; states_of v z' k'; reals [n'; i']; reals [V']; parameters_of p]
  = Ok (reals [u + beta p * V']) /\
  u = utility p z k n i.
Proof.
  intros. exists (utility p z k n i). split; [apply felicity_value; assumption|].
  split; [apply value_value; assumption|reflexivity].
Qed.

Lemma value_example : let p := Economy (1/2) 2 1 1 (1/2) (1/2) 0 0 1 in
  right_order tri_order /\ 0 < consumption p 0 1 1 (1/2) /\ 1 - sigma p <> 0 /\ 1 + eta p <> 0.
Proof.
  intros p. split; [exact example_order_right|]. unfold consumption, p. simpl. rewrite output_one, exp_0.
  repeat split; lra.
Qed.

Lemma steady_value_refuted : forall solve reorder keep kwargs sol v b a d s h ro sig n zb c,
  right_solver solve -> right_order reorder ->
  leaves kwargs ["V"; "chi"; "e_z"; "z"; "rk"; "w"; "k"; "y"; "i"; "c"; "p"] ->
  calibrate solve (rbc_version v) kwargs = Ok sol ->
  has sol "beta" b -> has sol "alpha" a -> has sol "delta" d -> has sol "sigma" s -> has sol "eta" h ->
  has sol "rho" ro -> has sol "sig_z" sig -> has sol "n" n -> has sol "zbar" zb -> has sol "c" c ->
  0 < b -> 0 < a -> a < 1 -> 0 < 1 / b - 1 + d -> 0 < n -> 0 < c ->
  v <> Plain -> 1 < s -> -1 < h -> b <> 1 ->
  exists V V', calibrated (rbc_version v) sol "values" = Ok (reals [V]) /\
    rest_value reorder keep (rbc_version v) sol = Ok (reals [V']) /\ V' < V.
Proof.
  intros solve reorder keep kwargs sol v b a d s h ro sig n zb c RS RO HL HC Hb Ha Hd Hs Hh Hro Hsig Hn Hz Hc b0 a0 a1 r0 n0 c0 NP s1 h1 b1.
  destruct (names_tail kwargs "V" HL) as [HL' HV].
  exact (rbc_rest_value solve reorder keep kwargs sol v b a d s h ro sig n zb c RS RO HL' HC Hb Ha Hd Hs Hh Hro Hsig Hn Hz Hc
    b0 a0 a1 r0 n0 c0 NP HV s1 h1 b1).
Qed.

Lemma iid_expectation : forall solve reorder keep kwargs sol b a d s h ro sig n zb c,
  right_solver solve -> right_order reorder ->
  leaves kwargs ["m"; "chi"; "e_z"; "z"; "rk"; "w"; "k"; "y"; "i"; "c"; "p"] ->
  calibrate solve rbc_iid_file kwargs = Ok sol ->
  has sol "beta" b -> has sol "alpha" a -> has sol "delta" d -> has sol "sigma" s -> has sol "eta" h ->
  has sol "rho" ro -> has sol "sig_z" sig -> has sol "n" n -> has sol "zbar" zb -> has sol "c" c ->
  0 < b -> 0 < a -> a < 1 -> 0 < 1 / b - 1 + d -> 0 < n -> 0 < c ->
  exists m m', calibrated rbc_iid_file sol "expectations" = Ok (reals [m]) /\
    rest_expectation reorder keep rbc_iid_file sol = Ok (reals [m']) /\ (m' = m <-> zb = 0).
Proof.
  intros solve reorder keep kwargs sol b a d s h ro sig n zb c RS RO HL HC Hb Ha Hd Hs Hh Hro Hsig Hn Hz Hc b0 a0 a1 r0 n0 c0.
  destruct (names_tail kwargs "m" HL) as [HL' Hm].
  destruct (rbc_rest_expectation_iid solve reorder keep kwargs sol Iid b a d s h ro sig n zb c RS RO HL' HC Hb Ha Hd Hs Hh Hro Hsig Hn Hz Hc
    b0 a0 a1 r0 n0 c0 eq_refl Hm) as (m & m' & E1 & E2 & E3 & _).
  exists m, m'. auto.
Qed.

Lemma expectation_refuted : forall solve reorder keep kwargs sol v b a d s h ro sig n zb c,
  right_solver solve -> right_order reorder ->
  leaves kwargs ["m"; "chi"; "e_z"; "z"; "rk"; "w"; "k"; "y"; "i"; "c"; "p"] ->
  calibrate solve (rbc_version v) kwargs = Ok sol ->
  has sol "beta" b -> has sol "alpha" a -> has sol "delta" d -> has sol "sigma" s -> has sol "eta" h ->
  has sol "rho" ro -> has sol "sig_z" sig -> has sol "n" n -> has sol "zbar" zb -> has sol "c" c ->
  0 < b -> 0 < a -> a < 1 -> 0 < 1 / b - 1 + d -> 0 < n -> 0 < c ->
  v = Ar1 \/ v = Mc -> d <= 1 ->
  calibrated (rbc_version v) sol "expectations" = Ok (reals [0]) /\
  exists m, rest_expectation reorder keep (rbc_version v) sol = Ok (reals [m]) /\ 0 < m.
Proof.
  intros solve reorder keep kwargs sol v b a d s h ro sig n zb c RS RO HL HC Hb Ha Hd Hs Hh Hro Hsig Hn Hz Hc b0 a0 a1 r0 n0 c0 Hv d1.
  destruct (names_tail kwargs "m" HL) as [HL' Hm].
  exact (rbc_rest_expectation_zero solve reorder keep kwargs sol v b a d s h ro sig n zb c RS RO HL' HC Hb Ha Hd Hs Hh Hro Hsig Hn Hz Hc
    b0 a0 a1 r0 n0 c0 Hv Hm d1).
Qed.

Lemma calibration_example : forall v zb, 0 <= zb -> exists sol c,
  right_solver example_solve /\
  leaves [("zbar", lit zb)] ["V"; "m"; "chi"; "e_z"; "z"; "rk"; "w"; "k"; "y"; "i"; "c"; "p"] /\
  calibrate example_solve (rbc_version v) [("zbar", lit zb)] = Ok sol /\
  has sol "beta" (99/100) /\ has sol "alpha" (33/100) /\ has sol "delta" (25/1000) /\
  has sol "sigma" 5 /\ has sol "eta" 1 /\ has sol "rho" (8/10) /\ has sol "sig_z" (16/1000) /\
  has sol "n" (33/100) /\ has sol "zbar" zb /\ has sol "c" c /\ 0 < c /\
  0 < 1 / (99/100) - 1 + 25/1000.
Proof.
  intros v zb z0. destruct (rbc_runs v zb z0) as (sol & c & HC & H1 & H2 & H3 & H4 & H5 & H6 & H7 & H8 & H9 & H10 & c0).
  exists sol, c. split; [exact example_solve_right|].
  split; [apply leaves_zbar; simpl; intuition discriminate|]. repeat (split; [assumption|]). lra.
Qed.

Lemma euler_example :
  let law : list (R * (R * R * R)) := [(1/4, (0, 1, 1)); (3/4, (1, 2, 2))] in
  exists (q e : R * R * R -> R), total law = 1 /\ 0 < mean q law /\
  (forall p y' w' c', In (p, (y', w', c')) law -> 0 < c' /\
     model_function tri_order true savings_file "expectation"
       [reals [y']; reals [w']; reals [c']; reals [1/2; 2; 1; 1; 3/2; 1]] = Ok (reals [q (y', w', c')]) /\
     model_function tri_order true savings_file "arbitrage"
       [reals [0]; reals [2]; reals [1]; reals [y']; reals [w']; reals [c']; reals [1/2; 2; 1; 1; 3/2; 1]]
     = Ok (reals [e (y', w', c')])).
Proof.
  intros law.
  exists (fun o => 1/2 * Rpower (snd o / 1) (- (2)) * (3/2)), (fun o => 1/2 * Rpower (snd o / 1) (- (2)) * (3/2) - 1).
  split; [unfold total, mean, law; simpl; lra|]. split.
  { unfold mean, law. simpl. pose proof (Rpower_pos (1 / 1) (- (2))). pose proof (Rpower_pos (2 / 1) (- (2))). lra. }
  intros p y' w' c' H.
  assert (c0 : 0 < c') by (destruct H as [E|[E|[]]]; injection E as <- <- <- <-; lra).
  split; [exact c0|]. split.
  - apply savings_expectation; [exact example_order_right|exact c0|lra].
  - apply savings_arbitrage; [exact example_order_right|lra|exact c0].
Qed.

Lemma brock_example : forall v, let p := Economy (1/2) 1 1 (2/3) 1 (1/2) 0 0 1 in
  chi p * Rpower 1 (1 + eta p) = (1 - alpha p) / (1 - alpha p * beta p) /\
  model_function tri_order true (rbc_version v) "transition"
    [exogenous_of v 0 0; states_of v 0 1; reals [1; 1/2 * (1/2) * output (1/2) 0 1 1]; exogenous_of v 1 1; parameters_of p]
  = Ok (states_of v 1 ((1 - 1) * 1 + 1/2 * (1/2) * output (1/2) 0 1 1)).
Proof.
  intros v p. split; [unfold p; simpl; rewrite Rpower_base_1; field|].
  apply (version_transition tri_order true v p); [exact example_order_right|lra|lra|].
  intros _. unfold p. simpl. ring.
Qed.

Lemma domain_contains : forall solve kwargs sol v b a d s h ro sig n zb c,
  right_solver solve ->
  leaves kwargs ["kss"; "chi"; "e_z"; "z"; "rk"; "w"; "k"; "y"; "i"; "c"; "p"] ->
  calibrate solve (rbc_version v) kwargs = Ok sol ->
  has sol "beta" b -> has sol "alpha" a -> has sol "delta" d -> has sol "sigma" s -> has sol "eta" h ->
  has sol "rho" ro -> has sol "sig_z" sig -> has sol "n" n -> has sol "zbar" zb -> has sol "c" c ->
  0 < b -> 0 < a -> a < 1 -> 0 < 1 / b - 1 + d -> 0 < n -> 0 < c -> 0 < sig -> 0 < ro < 1 ->
  exists dom k, model_domain (rbc_version v) (version_domain v) sol = Ok (Some dom) /\ has sol "k" k /\
    (inside dom "k" sol <-> (v = Plain -> 5 <= k <= 15)) /\
    (v = Plain \/ v = Iid ->
       (inside dom "z" sol <-> Rabs zb <= 2 * sig / Rpower (1 - Rpower ro 2) (5/10))).
Proof.
  intros solve kwargs sol v b a d s h ro sig n zb c RS HL HC Hb Ha Hd Hs Hh Hro Hsig Hn Hz Hc b0 a0 a1 r0 n0 c0 sg r01.
  destruct (names_tail kwargs "kss" HL) as [HL' Hm].
  destruct (rbc_capital_value solve kwargs sol v b a d s h n zb c RS HL' HC Hb Ha Hd Hs Hh Hn Hz Hc b0 a0 a1 r0 n0 c0)
    as (_ & _ & Hk).
  destruct (rbc_domain_value solve kwargs sol v b a d s h ro sig n zb c RS HL' HC Hb Ha Hd Hs Hh Hro Hsig Hn Hz Hc
    b0 a0 a1 r0 n0 c0 sg r01 Hm) as (dom & D & I1 & I2).
  exists dom. eexists. split; [exact D|]. split; [exact Hk|]. split; [exact I1|exact I2].
Qed.

(** With zbar at 1, productivity is outside of its interval. *)
Lemma domain_refuted : forall v, v = Plain \/ v = Iid -> exists sol dom,
  calibrate example_solve (rbc_version v) [("zbar", lit 1)] = Ok sol /\
  model_domain (rbc_version v) (version_domain v) sol = Ok (Some dom) /\ ~ inside dom "z" sol.
Proof.
  intros v Hv. destruct (rbc_runs v 1 ltac:(lra)) as (sol & c & HC & H1 & H2 & H3 & H4 & H5 & H6 & H7 & H8 & H9 & H10 & c0).
  destruct (domain_contains example_solve [("zbar", lit 1)] sol v _ _ _ _ _ _ _ _ _ _ example_solve_right
    (leaves_zbar 1 (rbc_names "kss") ltac:(simpl; intuition discriminate)) HC H1 H2 H3 H4 H5 H6 H7 H8 H9 H10)
    as (dom & k & D & Hk & _ & I); try lra.
  exists sol, dom. split; [exact HC|]. split; [exact D|]. rewrite (I Hv). clear I.
  rewrite Rabs_R1.
  assert (E : Rpower (8/10) 2 = 64/100).
  { replace 2 with (1 + 1) by ring. rewrite Rpower_plus, Rpower_1 by lra. lra. }
  rewrite E. set (x := Rpower (1 - 64/100) (5/10)).
  assert (x0 : 0 < x) by apply Rpower_pos.
  assert (xx : x * x = 36/100).
  { unfold x. rewrite <- Rpower_plus. replace (5/10 + 5/10) with 1 by field. rewrite Rpower_1 by lra. lra. }
  assert (x1 : 1/10 < x) by nra.
  intros I. apply (Rmult_le_compat_r x) in I; [|lra].
  replace (2 * (16/1000) / x * x) with (2 * (16/1000)) in I by (field; lra). lra.
Qed.
