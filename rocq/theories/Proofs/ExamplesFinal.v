(** Proofs about the shipped model files: the equations of the four RBC files, of rmt3_ch11.yaml and
    of consumption_savings_iid.yaml. *)
From Coq Require Import String Reals List ZArith Permutation Lra Lia.
From Verif Require Import Base.Prelude Base.Dict Spec.CompilerMisc Model.CompilerMisc Model.Factories Spec.Factories
  Proofs.FactoriesProofs Proofs.FactoriesFinal
  Model.ModelObject Spec.ModelObject Proofs.ModelObjectProofs Proofs.ModelObjectFinal
  Model.Examples Spec.Examples Proofs.ExamplesProofs.
Import ListNotations.
Open Scope string_scope.
Open Scope list_scope.
Open Scope R_scope.

(** ** The RBC files, whatever the version *)
Lemma version_arbitrage : forall reorder keep v p e z k n i e' z' k' n' i',
  right_order reorder -> 0 < k -> 0 < n -> 0 < k' -> 0 < n' ->
  0 < consumption p z k n i -> 0 < consumption p z' k' n' i' ->
  model_function reorder keep (rbc_version v) "arbitrage"
    [exogenous_of v e z; states_of v z k; reals [n; i];
     exogenous_of v e' z'; states_of v z' k'; reals [n'; i']; parameters_of p]
  = Ok (reals [labour_gap p z k n i;
               1 - beta p * Rpower (consumption p z k n i / consumption p z' k' n' i') (sigma p)
                   * gross_return p z' k' n']).
Proof.
  intros reorder keep v p e z k n i e' z' k' n' i' RO k0 n0 k0' n0' c0 c0'.
  destruct v.
  - exact (rbc_arbitrage reorder keep e z k n i e' z' k' n' i' _ _ _ _ _ _ _ _ _ RO k0 n0 k0' n0' c0 c0').
  - exact (rbc_iid_arbitrage reorder keep e z k n i e' z' k' n' i' _ _ _ _ _ _ _ _ _ RO k0 n0 k0' n0' c0 c0').
  - exact (rbc_ar1_arbitrage reorder keep z k n i z' k' n' i' _ _ _ _ _ _ _ _ _ RO k0 n0 k0' n0' c0 c0').
  - exact (rbc_mc_arbitrage reorder keep e z k n i e' z' k' n' i' _ _ _ _ _ _ _ _ _ RO k0 n0 k0' n0' c0 c0').
Qed.

Lemma version_transition : forall reorder keep v p e z k n i e' z',
  right_order reorder -> 0 < k -> 0 < n -> (v = Plain \/ v = Iid -> z' = rho p * z + e') ->
  model_function reorder keep (rbc_version v) "transition"
    [exogenous_of v e z; states_of v z k; reals [n; i]; exogenous_of v e' z'; parameters_of p]
  = Ok (states_of v z' ((1 - delta p) * k + i)).
Proof.
  intros reorder keep v p e z k n i e' z' RO k0 n0 Hz.
  destruct v.
  - rewrite Hz by auto. exact (rbc_transition reorder keep e z k n i e' _ _ _ _ _ _ _ _ _ RO k0 n0).
  - rewrite Hz by auto. exact (rbc_iid_transition reorder keep e z k n i e' _ _ _ _ _ _ _ _ _ RO k0 n0).
  - exact (rbc_ar1_transition reorder keep z k n i z' _ _ _ _ _ _ _ _ _ RO k0 n0).
  - exact (rbc_mc_transition reorder keep e z k n i e' z' _ _ _ _ _ _ _ _ _ RO k0 n0).
Qed.

Lemma felicity_raw : forall reorder keep v e z k n i b s h x d a ro zb sg,
  v <> Plain -> right_order reorder -> 0 < k -> 0 < n -> 0 < output a z k n - i -> 1 - s <> 0 -> 1 + h <> 0 ->
  model_function reorder keep (rbc_version v) "felicity"
    [exogenous_of v e z; states_of v z k; reals [n; i]; reals [b; s; h; x; d; a; ro; zb; sg]]
  = Ok (reals [Rpower (output a z k n - i) (1 - s) / (1 - s) - x * Rpower n (1 + h) / (1 + h)]).
Proof.
  intros reorder keep v e z k n i b s h x d a ro zb sg NP RO k0 n0 c0 s1 h1.
  destruct v; [contradiction| | |]; cbn [rbc_version exogenous_of states_of].
  - target_function rbc_iid_declared. factory_of rbc_iid_file "felicity".
    unfold output in *. destruct keep; run_call.
  - target_function rbc_ar1_declared. factory_of rbc_ar1_file "felicity".
    unfold output in *. destruct keep; run_call.
  - target_function rbc_mc_declared. factory_of rbc_mc_file "felicity".
    unfold output in *. destruct keep; run_call.
Qed.

Lemma value_raw : forall reorder keep v e z k n i V e' z' k' n' i' V' b s h x d a ro zb sg,
  v <> Plain -> right_order reorder -> 0 < k -> 0 < n -> 0 < output a z k n - i ->
  0 < k' -> 0 < n' -> 1 - s <> 0 -> 1 + h <> 0 ->
  model_function reorder keep (rbc_version v) "value"
    [exogenous_of v e z; states_of v z k; reals [n; i]; reals [V];
     exogenous_of v e' z'; states_of v z' k'; reals [n'; i']; reals [V'];
     reals [b; s; h; x; d; a; ro; zb; sg]]
  = Ok (reals [Rpower (output a z k n - i) (1 - s) / (1 - s) - x * Rpower n (1 + h) / (1 + h) + b * V']).
Proof.
  intros reorder keep v e z k n i V e' z' k' n' i' V' b s h x d a ro zb sg NP RO k0 n0 c0 k0' n0' s1 h1.
  destruct v; [contradiction| | |]; cbn [rbc_version exogenous_of states_of].
  - target_function rbc_iid_declared. factory_of rbc_iid_file "value".
    unfold output in *. destruct keep; run_call.
  - target_function rbc_ar1_declared. factory_of rbc_ar1_file "value".
    unfold output in *. destruct keep; run_call.
  - target_function rbc_mc_declared. factory_of rbc_mc_file "value".
    unfold output in *. destruct keep; run_call.
Qed.

Lemma expectation_raw : forall reorder keep v e z k n i b s h x d a ro zb sg,
  v <> Plain -> right_order reorder -> 0 < k -> 0 < n -> 0 < output a z k n - i ->
  model_function reorder keep (rbc_version v) "expectation"
    [exogenous_of v e z; states_of v z k; reals [n; i]; reals [b; s; h; x; d; a; ro; zb; sg]]
  = Ok (reals [b / Rpower (output a z k n - i) s * (1 - d + a * output a z k n / k)]).
Proof.
  intros reorder keep v e z k n i b s h x d a ro zb sg NP RO k0 n0 c0.
  destruct v; [contradiction| | |]; cbn [rbc_version exogenous_of states_of].
  - target_function rbc_iid_declared. factory_of rbc_iid_file "expectation".
    unfold output in *. destruct keep; run_call.
  - target_function rbc_ar1_declared. factory_of rbc_ar1_file "expectation".
    unfold output in *. destruct keep; run_call.
  - target_function rbc_mc_declared. factory_of rbc_mc_file "expectation".
    unfold output in *. destruct keep; run_call.
Qed.

Lemma order_nil : forall reorder, right_order reorder -> reorder [] = Ok [].
Proof.
  intros reorder [SO TOT]. destruct (TOT [] [] (perm_nil _) I) as [l E].
  destruct (SO _ _ E) as [P _]. apply Permutation_nil in P. subst. exact E.
Qed.

Lemma plain_order : forall reorder f q sp,
  right_order reorder -> chosen_spec q = Some sp -> preamble_dates (shift_spec sp 0) = [] ->
  get_factory reorder (file_source f) q 0 = get_factory check_sorted (file_source f) q 0.
Proof.
  intros reorder f q sp RO Esp Ep. unfold get_factory. rewrite Esp.
  destruct (chosen_equations (file_source f) q); [|reflexivity]. cbn [bind].
  destruct (map_res _ _); [|reflexivity]. cbn [bind].
  destruct (make_content _ _ _); [|reflexivity]. cbn [bind]. rewrite Ep.
  replace (make_definitions (file_source f) []) with (@nil (sym * formula)).
  2:{ unfold make_definitions. generalize (src_definitions (file_source f)).
      intros l. replace (flat_map _ l) with (@nil (sym * formula)); [reflexivity|].
      induction l as [|d l IH]; [reflexivity|exact IH]. }
  rewrite (order_nil reorder RO). reflexivity.
Qed.

Ltac plain_factory f q RO :=
  unfold model_function; erewrite plain_order by first [exact RO|reflexivity];
  fold (model_function check_sorted true f q); factory_of f q.

Lemma direct_raw : forall reorder v e z k m b s h x d a ro zb sg,
  v <> Plain -> right_order reorder -> 0 < k -> 0 < m -> 0 < x -> a < 1 -> s <> 0 -> h + a <> 0 ->
  let n := Rpower ((1 - a) * exp z * Rpower k a * m / x) (1 / (h + a)) in
  model_function reorder true (rbc_version v) "direct_response"
    [exogenous_of v e z; states_of v z k; reals [m]; reals [b; s; h; x; d; a; ro; zb; sg]]
  = Ok (reals [n; exp z * Rpower k a * Rpower n (1 - a) - Rpower m (- (1) / s)]).
Proof.
  intros reorder v e z k m b s h x d a ro zb sg NP RO k0 m0 x0 a1 s0 ha n.
  assert (X0 : 0 < (1 - a) * exp z * Rpower k a * m / x) by pos.
  destruct v; [contradiction| | |]; cbn [rbc_version exogenous_of states_of].
  - plain_factory rbc_iid_file "direct_response" RO. run_call.
  - plain_factory rbc_ar1_file "direct_response" RO. run_call.
  - plain_factory rbc_mc_file "direct_response" RO. run_call.
Qed.

Lemma Rpower_pos : forall x y, 0 < Rpower x y.
Proof. intros. unfold Rpower. apply exp_pos. Qed.
Lemma Rpower_inv_exp : forall x a b, 0 < x -> a * b = 1 -> Rpower (Rpower x a) b = x.
Proof. intros x a b Hx E. rewrite Rpower_mult, E. apply Rpower_1, Hx. Qed.
Lemma Rpower_base_1 : forall s, Rpower 1 s = 1.
Proof. intros. unfold Rpower. rewrite ln_1, Rmult_0_r, exp_0. reflexivity. Qed.
Lemma Rpower_neg_div : forall x y, / Rpower x y = Rpower x (- y).
Proof. intros. symmetry. apply Rpower_Ropp. Qed.

Section Direct.
Variables (p : economy) (z k m : R).
Hypotheses (k0 : 0 < k) (m0 : 0 < m) (x0 : 0 < chi p) (a1 : alpha p < 1) (s0 : sigma p <> 0)
  (ha : eta p + alpha p <> 0).
Let a := alpha p.
Let X := (1 - a) * exp z * Rpower k a * m / chi p.

Lemma wage : forall n, 0 < n -> (1 - a) * output a z k n / n = (1 - a) * exp z * Rpower k a * Rpower n (- a).
Proof.
  intros n n0. unfold output. replace (1 - a) with (1 + - a) by ring.
  rewrite Rpower_plus, Rpower_1 by exact n0. field. lra.
Qed.

Lemma labour_iff : forall n c, 0 < n -> Rpower c (- sigma p) = m ->
  (chi p * Rpower n (eta p) * Rpower c (sigma p) - (1 - a) * output a z k n / n = 0 <->
   Rpower n (eta p + a) = X).
Proof.
  intros n c n0 E. rewrite wage by exact n0.
  assert (Ec : Rpower c (sigma p) = / m).
  { rewrite <- E, Rpower_neg_div. f_equal. ring. }
  rewrite Ec, Rpower_plus. rewrite <- (Rpower_neg_div n a).
  pose proof (Rpower_pos n a) as Pa. unfold X.
  split; intros H.
  - apply Rminus_diag_uniq in H.
    apply (Rmult_eq_reg_l (chi p / m)); [|apply Rgt_not_eq, Rdiv_lt_0_compat; assumption].
    replace (chi p / m * ((1 - a) * exp z * Rpower k a * m / chi p)) with ((1 - a) * exp z * Rpower k a) by (field; lra).
    replace ((1 - a) * exp z * Rpower k a) with ((1 - a) * exp z * Rpower k a * / Rpower n a * Rpower n a) by (field; lra).
    rewrite <- H. field. lra.
  - replace (chi p * Rpower n (eta p) * / m) with (chi p / m * (Rpower n (eta p) * Rpower n a) / Rpower n a) by (field; lra).
    rewrite H. field. lra.
Qed.

Lemma direct_response_iff : forall reorder v e n i,
  v <> Plain -> right_order reorder ->
  (model_function reorder true (rbc_version v) "direct_response"
     [exogenous_of v e z; states_of v z k; reals [m]; parameters_of p] = Ok (reals [n; i]) <->
   0 < n /\ 0 < consumption p z k n i /\ labour_gap p z k n i = 0 /\
   Rpower (consumption p z k n i) (- sigma p) = m).
Proof.
  intros reorder v e n i NP RO.
  pose proof (direct_raw reorder v e z k m (beta p) (sigma p) (eta p) (chi p) (delta p) (alpha p) (rho p) (zbar p)
    (sig_z p) NP RO k0 m0 x0 a1 s0 ha) as E. cbn [reals map] in E. unfold parameters_of. cbn [reals map].
  rewrite E. clear E. fold a. fold X. unfold labour_gap, consumption. fold a.
  assert (X0 : 0 < X). { unfold X. unfold a. pose proof (exp_pos z). pose proof (Rpower_pos k (alpha p)). pos. }
  split.
  - intros H. injection H as En Ei. subst n i.
    set (n := Rpower X (1 / (eta p + a))) in *.
    assert (n0 : 0 < n) by (apply Rpower_pos).
    fold (output a z k n).
    replace (output a z k n - (output a z k n - Rpower m (- (1) / sigma p))) with (Rpower m (- (1) / sigma p)) by ring.
    assert (Em : Rpower (Rpower m (- (1) / sigma p)) (- sigma p) = m).
    { apply Rpower_inv_exp; [exact m0|]. field. exact s0. }
    split; [exact n0|]. split; [apply Rpower_pos|]. split; [|exact Em].
    apply (labour_iff n _ n0 Em). unfold n. apply Rpower_inv_exp; [exact X0|]. field. exact ha.
  - intros (n0 & c0 & Hl & Em).
    apply (labour_iff n _ n0 Em) in Hl. rewrite <- Hl.
    rewrite Rpower_inv_exp by (try exact n0; field; exact ha).
    fold (output a z k n).
    replace (Rpower m (- (1) / sigma p)) with (output a z k n - i).
    2:{ rewrite <- Em. symmetry. apply Rpower_inv_exp; [exact c0|]. field. exact s0. }
    replace (output a z k n - (output a z k n - i)) with i by ring. reflexivity.
Qed.
End Direct.

(** The Euler equation, with what the expectation equation computes *)
Lemma euler_discounted : forall p z k n i z' k' n' i',
  0 < consumption p z k n i -> 0 < consumption p z' k' n' i' ->
  1 - beta p * Rpower (consumption p z k n i / consumption p z' k' n' i') (sigma p) * gross_return p z' k' n'
  = 1 - Rpower (consumption p z k n i) (sigma p) * discounted p z' k' n' i'.
Proof.
  intros p z k n i z' k' n' i' c0 c0'. unfold discounted.
  unfold Rdiv. rewrite <- Rpower_mult_distr by (try assumption; apply Rinv_0_lt_compat; assumption).
  replace (Rpower (/ consumption p z' k' n' i') (sigma p)) with (Rpower (consumption p z' k' n' i') (- sigma p)).
  2:{ unfold Rpower. rewrite ln_Rinv by assumption. f_equal. ring. }
  ring.
Qed.

Lemma expectation_value : forall reorder keep v p e z k n i,
  v <> Plain -> right_order reorder -> 0 < k -> 0 < n -> 0 < consumption p z k n i ->
  model_function reorder keep (rbc_version v) "expectation"
    [exogenous_of v e z; states_of v z k; reals [n; i]; parameters_of p]
  = Ok (reals [discounted p z k n i]).
Proof.
  intros reorder keep v p e z k n i NP RO k0 n0 c0.
  unfold parameters_of. rewrite expectation_raw by assumption.
  unfold discounted, gross_return, consumption. rewrite Rpower_Ropp. reflexivity.
Qed.

Lemma mean_linear : forall {A} (f : A -> R) (a b : R) law,
  mean (fun o => a - b * f o) law = a * total law - b * mean f law.
Proof.
  intros A f a b law. unfold total. induction law as [|[w o] l IH]; simpl; [ring|].
  simpl in IH. rewrite IH. ring.
Qed.
Lemma mean_ext : forall {A} (f g : A -> R) law, (forall o, In o law -> f (snd o) = g (snd o)) -> mean f law = mean g law.
Proof.
  intros A f g law H. induction law as [|o l IH]; [reflexivity|].
  simpl. rewrite (H o) by (left; reflexivity). rewrite IH; [reflexivity|]. intros; apply H; right; assumption.
Qed.

(** An outcome of tomorrow: the shock, productivity, capital, labour, investment. *)
Definition outcome : Type := (R * R * R * R * R)%type.
Definition sensible (p : economy) (o : outcome) : Prop :=
  let '(e', z', k', n', i') := o in 0 < k' /\ 0 < n' /\ 0 < consumption p z' k' n' i'.

Lemma expected_euler : forall reorder keep v p e z k m n i (law : list (R * outcome)) (q g1 g2 : outcome -> R),
  v <> Plain -> right_order reorder ->
  0 < k -> 0 < m -> 0 < chi p -> alpha p < 1 -> sigma p <> 0 -> eta p + alpha p <> 0 ->
  0 < n -> 0 < consumption p z k n i ->
  total law = 1 -> law <> [] ->
  (forall o, In o law -> sensible p (snd o)) ->
  (forall w e' z' k' n' i', In (w, (e', z', k', n', i')) law ->
     model_function reorder keep (rbc_version v) "expectation"
       [exogenous_of v e' z'; states_of v z' k'; reals [n'; i']; parameters_of p]
     = Ok (reals [q (e', z', k', n', i')])) ->
  (forall w e' z' k' n' i', In (w, (e', z', k', n', i')) law ->
     model_function reorder keep (rbc_version v) "arbitrage"
       [exogenous_of v e z; states_of v z k; reals [n; i];
        exogenous_of v e' z'; states_of v z' k'; reals [n'; i']; parameters_of p]
     = Ok (reals [g1 (e', z', k', n', i'); g2 (e', z', k', n', i')])) ->
  m = mean q law ->
  (model_function reorder true (rbc_version v) "direct_response"
     [exogenous_of v e z; states_of v z k; reals [m]; parameters_of p] = Ok (reals [n; i]) <->
   (forall o, In o law -> g1 (snd o) = 0) /\ mean g2 law = 0).
Proof.
  intros reorder keep v p e z k m n i law q g1 g2 NP RO k0 m0 x0 a1 s0 ha n0 c0 T1 NE SE HQ HG Em.
  rewrite (direct_response_iff p z k m k0 m0 x0 a1 s0 ha reorder v e n i NP RO).
  set (c := consumption p z k n i) in *.
  assert (G1 : forall o, In o law -> g1 (snd o) = labour_gap p z k n i).
  { intros [w [[[[e' z'] k'] n'] i']] Ho. destruct (SE _ Ho) as (k0' & n0' & c0').
    pose proof (HG _ _ _ _ _ _ Ho) as E.
    rewrite version_arbitrage in E by assumption. injection E as E1 E2. symmetry. exact E1. }
  assert (G2 : forall o, In o law -> g2 (snd o) = 1 - Rpower c (sigma p) * q (snd o)).
  { intros [w [[[[e' z'] k'] n'] i']] Ho. destruct (SE _ Ho) as (k0' & n0' & c0').
    pose proof (HG _ _ _ _ _ _ Ho) as E. pose proof (HQ _ _ _ _ _ _ Ho) as E'.
    rewrite version_arbitrage in E by assumption. injection E as E1 E2.
    rewrite expectation_value in E' by assumption. injection E' as E'. cbn [snd].
    rewrite <- E2, <- E'. apply euler_discounted; assumption. }
  assert (MG : mean g2 law = 1 - Rpower c (sigma p) * m).
  { rewrite (mean_ext g2 (fun o => 1 - Rpower c (sigma p) * q o)) by exact G2.
    rewrite (mean_linear (A := outcome) q 1 (Rpower c (sigma p)) law), T1, <- Em. ring. }
  assert (C : Rpower c (- sigma p) = m <-> mean g2 law = 0).
  { rewrite MG, Rpower_Ropp. pose proof (Rpower_pos c (sigma p)) as P. split; intros H.
    - rewrite <- H. field. lra.
    - apply (Rmult_eq_reg_l (Rpower c (sigma p))); [|lra].
      replace (Rpower c (sigma p) * / Rpower c (sigma p)) with 1 by (field; lra). lra. }
  split.
  - intros (_ & _ & Hl & Hm). split; [|apply C, Hm]. intros o Ho. rewrite (G1 o Ho). exact Hl.
  - intros [Hl Hm]. split; [exact n0|]. split; [exact c0|]. split; [|apply C, Hm].
    destruct law as [|o l]; [contradiction|]. rewrite <- (G1 o) by (left; reflexivity). apply Hl. left; reflexivity.
Qed.

(** ** Values *)
Lemma felicity_value : forall reorder keep v p e z k n i,
  v <> Plain -> right_order reorder -> 0 < k -> 0 < n -> 0 < consumption p z k n i ->
  1 - sigma p <> 0 -> 1 + eta p <> 0 ->
  model_function reorder keep (rbc_version v) "felicity"
    [exogenous_of v e z; states_of v z k; reals [n; i]; parameters_of p]
  = Ok (reals [utility p z k n i]).
Proof. intros. apply felicity_raw; assumption. Qed.
Lemma value_value : forall reorder keep v p e z k n i V e' z' k' n' i' V',
  v <> Plain -> right_order reorder -> 0 < k -> 0 < n -> 0 < consumption p z k n i -> 0 < k' -> 0 < n' ->
  1 - sigma p <> 0 -> 1 + eta p <> 0 ->
  model_function reorder keep (rbc_version v) "value"
    [exogenous_of v e z; states_of v z k; reals [n; i]; reals [V];
     exogenous_of v e' z'; states_of v z' k'; reals [n'; i']; reals [V']; parameters_of p]
  = Ok (reals [utility p z k n i + beta p * V']).
Proof. intros. apply value_raw; assumption. Qed.

(** ** Brock and Mirman *)
Lemma brock_mirman : forall reorder keep v p e z k n e' z' k',
  right_order reorder -> sigma p = 1 -> delta p = 1 ->
  0 < alpha p < 1 -> 0 < beta p -> alpha p * beta p < 1 ->
  0 < k -> 0 < n -> chi p * Rpower n (1 + eta p) = (1 - alpha p) / (1 - alpha p * beta p) ->
  let invest z k := alpha p * beta p * output (alpha p) z k n in
  (v = Plain \/ v = Iid -> z' = rho p * z + e') ->
  model_function reorder keep (rbc_version v) "transition"
    [exogenous_of v e z; states_of v z k; reals [n; invest z k]; exogenous_of v e' z'; parameters_of p]
  = Ok (states_of v z' k') ->
  model_function reorder keep (rbc_version v) "arbitrage"
    [exogenous_of v e z; states_of v z k; reals [n; invest z k];
     exogenous_of v e' z'; states_of v z' k'; reals [n; invest z' k']; parameters_of p]
  = Ok (reals [0; 0]).
Proof.
  intros reorder keep v p e z k n e' z' k' RO s1 d1 [a0 a1] b0 ab k0 n0 Hn invest Hz Ht.
  rewrite version_transition in Ht by assumption.
  assert (Ek : k' = invest z k).
  { rewrite d1 in Ht. destruct v; cbn [states_of reals map] in Ht; injection Ht as E; rewrite <- E; ring. }
  clear Ht.
  assert (y0 : forall z k, 0 < output (alpha p) z k n).
  { intros. unfold output. pose proof (exp_pos z0). pose proof (Rpower_pos k1 (alpha p)).
    pose proof (Rpower_pos n (1 - alpha p)). pos. }
  assert (ab0 : 0 < alpha p * beta p) by pos.
  assert (k0' : 0 < k') by (rewrite Ek; apply Rmult_lt_0_compat; auto).
  assert (Ec : forall z k, consumption p z k n (invest z k) = (1 - alpha p * beta p) * output (alpha p) z k n).
  { intros. unfold consumption, invest. ring. }
  assert (c0 : forall z k, 0 < consumption p z k n (invest z k)).
  { intros. rewrite Ec. apply Rmult_lt_0_compat; [lra|auto]. }
  rewrite version_arbitrage by auto.
  unfold labour_gap, gross_return. rewrite !Ec, s1, d1.
  pose proof (y0 z k) as yz. pose proof (y0 z' k') as yz'.
  rewrite !Rpower_1 by (try apply Rdiv_lt_0_compat; apply Rmult_lt_0_compat; auto; lra).
  replace (1 + eta p) with (eta p + 1) in Hn by ring. rewrite Rpower_plus, Rpower_1 in Hn by exact n0.
  assert (two : forall x y x' y' : R, x = x' -> y = y' -> Ok (reals [x; y]) = Ok (reals [x'; y'])) by congruence.
  apply two.
  - replace (chi p * Rpower n (eta p) * ((1 - alpha p * beta p) * output (alpha p) z k n))
      with (chi p * (Rpower n (eta p) * n) * (1 - alpha p * beta p) * output (alpha p) z k n / n) by (field; lra).
    rewrite Hn. field. lra.
  - set (Y := output (alpha p) z' k' n) in *. clearbody Y. rewrite Ek. unfold invest. field. repeat split; try lra.
Qed.
