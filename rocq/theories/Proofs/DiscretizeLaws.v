(** Discretisations are probabilities. *)
From Coq Require Import String Reals List Arith Bool Lia Lra.
From Verif.Base Require Import Prelude Sums Arrays Dict.
From Verif.Spec Require Import Product Law Markov Discretize.
From Verif.Model Require Import Discretization Grids Distributions Processes GdpDiscretization Discretize.
From Verif.Proofs Require Import GridProofs LawProofs LawFinal Rouwenhorst Markov Multidim DiscretizationFinal NormalProofs DiscretizeKinds.
Import ListNotations.
Open Scope R_scope.

Lemma good_of_weights : forall d, vlen (iid_weights d) = iid_n d -> good_iid d.
Proof. intros [p|p w] H; [exact I|exact H]. Qed.

Lemma law_nonempty : forall n w, is_law n w -> (0 < n)%nat.
Proof. intros [|n] w [_ H]; [unfold rsum in H; simpl in H; lra|lia]. Qed.

Lemma everyp_Forall : forall A (P : A -> Prop) l, everyp P l <-> Forall P l.
Proof.
  intros A P l. induction l as [|x l IH]; cbn [everyp]; [split; constructor|].
  split; [intros [H1 H2]; constructor; [exact H1|apply IH, H2]|intros H; inversion H; subst; split; [assumption|apply IH; assumption]].
Qed.

Lemma law_probability : forall d t o, probability (OIid d) -> law_discretize d t = Ok o -> probability o.
Proof.
  intros d t o Hd H. unfold law_discretize in H. destruct (to_is t "iid"); [injection H as <-; exact Hd|].
  destruct (to_is t "mc"); [|discriminate]. apply bind_ok in H. destruct H as (c & E & H). injection H as <-.
  destruct Hd as [Hw Hl]. destruct (to_mc_spec d (good_of_weights d Hw)) as (P & E' & Hr & Hc & _).
  destruct (to_mc_expect d (good_of_weights d Hw)) as (P' & E'' & _ & Hs).
  assert (P' = P) by congruence. subst P'. assert (c = (iid_points d, P)) by congruence. subst c.
  split; cbn [fst snd]; [rewrite Hr; reflexivity|]. rewrite Hr. exact (Hs Hl).
Qed.

Lemma identity_stochastic : forall n, stochastic n (Mat n n (fun i j => if Nat.eqb i j then 1 else 0)).
Proof.
  intros n. split; [reflexivity|]. split; [reflexivity|]. cbn [mget]. split.
  - intros i j _ _. destruct (Nat.eqb i j); lra.
  - intros i Hi. rewrite (rsum_single n i); [rewrite Nat.eqb_refl; reflexivity|exact Hi|].
    intros j _ Hj. destruct (Nat.eqb_spec i j) as [E|_]; [symmetry in E; contradiction|reflexivity].
Qed.

Lemma constant_probability : forall mu t k o, constant_discretize mu t k = Ok o -> probability o.
Proof.
  intros mu t k o H. unfold constant_discretize in H. destruct (to_is t "iid").
  { cbn in H. injection H as <-. split; [reflexivity|]. split; [intros i _; cbn; lra|]. unfold rsum, iid_n; simpl. lra. }
  destruct (to_is t "mc"); [|discriminate].
  destruct (kw_N k) as [[n|l]|]; try discriminate; injection H as <-; (split; [reflexivity|apply identity_stochastic]).
Qed.

Lemma ep_probability : forall ppf N mp d, discretize_ep ppf N mp = Ok d -> probability (OIid d).
Proof.
  intros ppf N mp d H. unfold discretize_ep in H.
  assert (G : forall q, (if Nat.eqb N 0 then Err ExcZeroDiv else Ok (Equi (Mat N 1 (fun i _ => q i)))) = Ok d -> probability (OIid d)).
  { intros q E. destruct (Nat.eqb_spec N 0); [discriminate|]. injection E as <-. split; [reflexivity|].
    apply equi_law. cbn [nrow]. lia. }
  destruct mp; try exact (G _ H). discriminate.
Qed.

Section Rule.
  Variable herm : nat -> res ((nat -> R) * (nat -> R)).
  Variable chol_np chol_sp : mat -> res mat.
  Hypothesis Hherm : weighted_rule herm.

  Lemma prodl_nonneg : forall dims fs idx, Forall2 (fun n f => forall i, (i < n)%nat -> 0 <= f i) dims fs ->
      valid_index dims idx -> 0 <= prodl fs idx.
  Proof.
    intros dims fs. revert dims. induction fs as [|f fs IH]; intros dims idx H V; [simpl; lra|].
    inversion H as [|n ? ns ? Hn Hns]; subst. destruct idx as [|i idx]; [simpl; lra|].
    inversion V; subst. cbn [prodl]. apply Rmult_le_pos; [apply Hn; assumption|apply (IH ns); assumption].
  Qed.

  Lemma gh_weights_law : forall h, (1 <= fst h)%nat -> herm (fst h) = Ok (snd h) -> is_law (fst h) (vget (gh_weights h)).
  Proof.
    intros [o [x w]] Ho E. cbn [fst snd] in *. destruct (Hherm o x w Ho E) as [S0 P0]. pose proof sqrt_PI_pos as Hpi.
    unfold gh_weights. cbn [fst snd vget]. split.
    - intros i Hi. unfold Rdiv. apply Rmult_le_pos; [apply P0, Hi|left; apply Rinv_0_lt_compat, Hpi].
    - unfold Rdiv. rewrite rsum_scal_r, S0. field. lra.
  Qed.

  Lemma rule_weights : forall orders hs h0 rest, Forall (fun n => (1 <= n)%nat) orders -> herms herm orders = Ok hs -> hs = h0 :: rest ->
      let w := fold_left (fun w h => kron_vec w (gh_weights h)) rest (gh_weights h0) in is_law (vlen w) (vget w).
  Proof.
    intros orders hs h0 rest Ho E Eh w. destruct (herms_ok herm orders hs E) as [Hm Hh]. subst hs orders.
    assert (HL : forall h, In h (h0 :: rest) -> (1 <= fst h)%nat /\ is_law (fst h) (vget (gh_weights h))).
    { intros h Hi. rewrite Forall_map, Forall_forall in Ho. rewrite Forall_forall in Hh.
      split; [apply Ho, Hi|apply gh_weights_law; [apply Ho, Hi|apply Hh, Hi]]. }
    destruct (kron_weights _ gh_weights h0 rest) as [K1 K2].
    { rewrite Forall_forall. intros h Hi. cbn [gh_weights vlen]. destruct (HL h Hi). lia. }
    fold w in K1, K2. set (l := h0 :: rest) in *.
    set (dims := map (fun t => vlen (gh_weights t)) l) in *.
    assert (Hlen : length (map (fun t => vget (gh_weights t)) l) = length dims) by (unfold dims; rewrite !map_length; reflexivity).
    rewrite K1. split.
    - intros r Hr. rewrite K2. apply (prodl_nonneg dims).
      + unfold dims. clear - HL. induction l as [|h l IH]; [constructor|]. cbn [map]. constructor.
        * cbn [gh_weights vlen]. apply (HL h (or_introl eq_refl)).
        * apply IH. intros h' Hi. apply HL. right. exact Hi.
      + apply digits_valid, Hr.
    - rewrite (rsum_ext _ _ (fun r => prodl (map (fun t => vget (gh_weights t)) l) (digits dims r))) by (intros; apply K2).
      rewrite rsum_prodl by exact Hlen. apply prod_sums_ones; [exact Hlen|].
      intros k Hk. unfold dims in *. rewrite map_length in Hk.
      rewrite (nth_indep _ 0%nat (vlen (gh_weights h0))) by (rewrite map_length; exact Hk).
      rewrite (map_nth (fun t => vlen (gh_weights t))).
      rewrite (nth_indep _ (fun _ => 0) (vget (gh_weights h0))) by (rewrite map_length; exact Hk).
      rewrite (map_nth (fun t => vget (gh_weights t))).
      exact (proj2 (proj2 (HL (nth k l h0) (nth_In l h0 Hk)))).
  Qed.

  Lemma nodes_weights : forall orders sigma mu x w s, Forall (fun n => (1 <= n)%nat) orders ->
      gauss_hermite_nodes herm chol_np orders sigma mu = Ok (x, w, s) -> is_law (vlen w) (vget w).
  Proof.
    intros orders sigma mu x w s Ho H. unfold gauss_hermite_nodes in H. apply bind_ok in H. destruct H as (hs & E & H).
    destruct hs as [|h0 [|h1 rest]]; [discriminate| |].
    - destruct (Nat.eqb (nrow sigma) 1 && Nat.eqb (ncol sigma) 1)%bool; [|discriminate].
      destruct (Rlt_dec (mget sigma 0%nat 0%nat) 0); [discriminate|]. injection H as _ <- _.
      exact (rule_weights orders [h0] h0 [] Ho E eq_refl).
    - apply bind_ok in H. destruct H as (y & _ & H). cbv zeta in H. apply bind_ok in H. destruct H as (C & _ & H).
      destruct (negb (Nat.eqb (ncol C) (length orders))); [discriminate|]. destruct (negb (Nat.eqb (vlen mu) (nrow C))); [discriminate|].
      assert (Hw : w = fold_left (fun w h => kron_vec w (gh_weights h)) (h1 :: rest) (gh_weights h0)) by congruence.
      rewrite Hw. exact (rule_weights orders _ h0 (h1 :: rest) Ho E eq_refl).
  Qed.

  Lemma finite_probability : forall p w d, finite_distribution p w = Ok d -> is_law (vlen w) (vget w) -> probability (OIid d).
  Proof.
    intros p w d H L. destruct (finite_good _ _ _ H) as [-> G]. cbn [good_iid] in G. split; [exact G|].
    unfold iid_n. cbn [iid_points iid_weight]. rewrite <- G. exact L.
  Qed.

  Lemma unormal_probability : forall sigma mu orders d, Forall (fun n => (1 <= n)%nat) orders ->
      unormal_gh_orders herm chol_np sigma mu orders = Ok d -> probability (OIid d).
  Proof.
    intros sigma mu orders d Ho H. unfold unormal_gh_orders in H. apply bind_ok in H. destruct H as ([[x w] s] & E & H).
    exact (finite_probability _ _ _ H (nodes_weights _ _ _ _ _ _ Ho E)).
  Qed.

  Lemma normal_probability : forall n orders dn, Forall (fun n => (1 <= n)%nat) orders ->
      normal_discretize herm chol_np n orders = Ok dn -> probability (OIid (fst dn)).
  Proof.
    intros n orders dn Ho H. unfold normal_discretize in H. apply bind_ok in H. destruct H as ([[x w] s] & E & H).
    apply bind_ok in H. destruct H as (d & E' & H). injection H as <-.
    exact (finite_probability _ _ _ E' (nodes_weights _ _ _ _ _ _ Ho E)).
  Qed.

  Lemma chain_of_law : forall d c, probability (OIid d) -> iid_to_mc d = Ok c -> probability (OChain c).
  Proof.
    intros d c Hd E. apply (law_probability d (ToStr "mc") (OChain c) Hd). unfold law_discretize.
    change (to_is (ToStr "mc") "iid") with false. change (to_is (ToStr "mc") "mc") with true. cbv iota. rewrite E. reflexivity.
  Qed.

  Lemma univariate_probability : forall ppf gh t n m mp d, (forall d, m = Mgh -> gh n = Ok d -> probability (OIid d)) ->
      univariate_discretize ppf gh t n m mp = Ok d -> probability (out_of d).
  Proof.
    intros ppf gh t n m mp d Hg H. destruct t; cbn [univariate_discretize] in H; [| |discriminate].
    - destruct m; [| |discriminate]; apply bind_ok in H; destruct H as (a & E & H); injection H as <-; cbn [out_of].
      + exact (Hg _ eq_refl E).
      + exact (ep_probability _ _ _ _ E).
    - apply bind_ok in H; destruct H as (a & E & H). apply bind_ok in H; destruct H as (c & E' & H). injection H as <-.
      cbn [out_of]. exact (chain_of_law _ _ (ep_probability _ _ _ _ E) E').
  Qed.

  Lemma kw_N_positive : forall k, positive_orders k ->
      match kw_N k with Some (NInt n) => (1 <= n)%nat | Some (NList l) => Forall (fun n => (1 <= n)%nat) l | None => True end.
  Proof. intros [N m mp o b] H. destruct H as [H _]. exact H. Qed.

  Lemma uni_probability : forall ppf gh t k o, positive_orders k -> uni_discretize herm chol_np ppf gh t k = Ok o -> probability o.
  Proof.
    intros ppf gh t k o Hk H. apply kw_N_positive in Hk. unfold uni_discretize in H.
    assert (G : forall orders d, Forall (fun n => (1 <= n)%nat) orders ->
              match gh with Some (sigma, mu) => unormal_gh_orders herm chol_np sigma mu orders | None => Err ExcAttribute end = Ok d ->
              probability (OIid d)).
    { intros orders d Ho E. destruct gh as [[sigma mu]|]; [|discriminate]. exact (unormal_probability _ _ _ _ Ho E). }
    destruct (kw_N k) as [[n|l]|].
    - apply bind_ok in H. destruct H as (d & E & H). injection H as <-. refine (univariate_probability _ _ _ _ _ _ _ _ E).
      intros d0 _ E0. apply (G [n]); [constructor; [exact Hk|constructor]|exact E0].
    - destruct (to_is t "iid").
      + destruct (kw_method k); [| |discriminate].
        * apply bind_ok in H. destruct H as (d & E & H). injection H as <-. exact (G l d Hk E).
        * destruct (kw_mass_point k); discriminate.
      + apply bind_ok in H. destruct H as (d & E & H). injection H as <-. refine (univariate_probability _ _ _ _ _ _ _ _ E).
        intros d0 _ E0. apply (G [5%nat]); [constructor; [lia|constructor]|exact E0].
    - apply bind_ok in H. destruct H as (d & E & H). injection H as <-. refine (univariate_probability _ _ _ _ _ _ _ _ E).
      intros d0 _ E0. apply (G [5%nat]); [constructor; [lia|constructor]|exact E0].
  Qed.

  Lemma repeat_positive : forall n d, (1 <= n)%nat -> Forall (fun n => (1 <= n)%nat) (repeat n d).
  Proof. intros n d H. induction d; constructor; assumption. Qed.

  Lemma normal_to_probability : forall n t k o, positive_orders k -> normal_discretize_to herm chol_np n t k = Ok o -> probability o.
  Proof.
    intros n t k o Hk H. apply kw_N_positive in Hk. unfold normal_discretize_to in H. destruct (to_is t "iid").
    - apply bind_ok in H. destruct H as (dn & E & H). injection H as <-. refine (normal_probability _ _ _ _ E).
      destruct (kw_N k) as [[m|l]|]; [apply repeat_positive, Hk|exact Hk|apply repeat_positive; lia].
    - destruct (to_is t "mc"); [|discriminate]. apply bind_ok in H. destruct H as (cn & E & H). injection H as <-.
      unfold normal_discretize_mc in E. apply bind_ok in E. destruct E as (dn & E & E2). apply bind_ok in E2. destruct E2 as (c & E2 & E3).
      injection E3 as <-. cbn [fst]. refine (chain_of_law _ _ _ E2). refine (normal_probability _ _ _ _ E). apply repeat_positive. lia.
  Qed.

  Lemma var1_mc_probability : forall p n c, var1_discretize_mc chol_sp p n = Ok c -> probability (OChain c).
  Proof.
    intros p n c H. unfold var1_discretize_mc in H. destruct (scalar_check (v_rho p)); [|discriminate].
    apply bind_ok in H. destruct H as ([nodes P] & E & H). injection H as <-. cbn [fst snd].
    unfold multidimensional_discretization in E. apply bind_ok in E. destruct E as (L & _ & E).
    apply bind_ok in E. destruct E as ([n1 p1] & ER & E). injection E as <- <-. cbn [probability fst snd nrow].
    assert (Hs : stochastic n p1 /\ n <> 0%nat).
    { destruct n as [|[|n]].
      - discriminate.
      - injection ER as <- <-. split; [|lia]. split; [reflexivity|]. split; [reflexivity|]. cbn [mget].
        split; [intros; lra|]. intros i _. unfold rsum; simpl. lra.
      - split; [|lia]. destruct (rouwenhorst_ok_inv _ 1 (S (S n)) n1 p1 ltac:(lia) ER) as (_ & -> & Hr).
        apply rouw_stochastic; [lia|]. destruct (rho_bounds _ Hr); lra. }
    destruct Hs as [Hs Hn]. pose proof (kron_power_stochastic p1 n Hs (ncol (v_Sigma p))) as K.
    pose proof K as (K1 & _). rewrite K1. split; [reflexivity|exact K].
  Qed.

  Lemma var1_probability : forall p t k o, var1_discretize herm chol_np chol_sp p t k = Ok o -> probability o.
  Proof.
    intros p t k o H. unfold var1_discretize in H. destruct (to_is t "mc").
    { destruct (negb (only_N k)); [discriminate|].
      destruct (kw_N k) as [[n|l]|]; try (apply bind_ok in H; destruct H as (c & E & H); injection H as <-; exact (var1_mc_probability _ _ _ E)).
      destruct (scalar_check (v_rho p)); [|discriminate]. apply bind_ok in H. destruct H as (c & _ & H). discriminate. }
    destruct (to_is t "gdp"); [|injection H as <-; exact I].
    destruct (negb (only_N k)); [discriminate|]. apply bind_ok in H. destruct H as (g & Eg & _). destruct (var1_gdp_never _ _ _ _ _ Eg).
  Qed.

  Lemma ar1_probability : forall a b c t k o, ar1_discretize herm chol_np chol_sp a b c t k = Ok o -> probability o.
  Proof.
    intros a b c t k o H. unfold ar1_discretize in H. destruct (to_is t "gdp"); [|exact (var1_probability _ _ _ _ H)].
    destruct (negb (only_N k)); [discriminate|]. apply bind_ok in H. destruct H as (g & Eg & _).
    rewrite (GdpProofs.ar1_never herm chol_np) in Eg. discriminate.
  Qed.

  Lemma chain_probability : forall c t o, probability (OChain c) -> chain_discretize c t = Ok o -> probability o.
  Proof.
    intros c t o Hc H. unfold chain_discretize in H. destruct (to_is t "gdp").
    - injection H as <-. destruct Hc as [Hn (Hr & Hcol & Hpos & Hsum)]. cbn [probability mc_to_gdp gdp_nodes gdp_k gdp_iweights].
      intros i Hi. rewrite Hn in *. split; [intros j Hj; apply Hpos; assumption|apply Hsum, Hi].
    - destruct (to_is t "mc"); [|discriminate]. injection H as <-. exact Hc.
  Qed.

  Lemma laws_probability : forall ds d, Forall (fun d => probability (OIid d)) ds -> product_iid ds = Ok d -> probability (OIid d).
  Proof.
    intros ds d Hd H. assert (Hne : ds <> []) by (intros ->; discriminate).
    assert (G : Forall good_iid ds) by (eapply Forall_impl; [|exact Hd]; intros a [A _]; apply good_of_weights, A).
    assert (L : Forall (fun d => is_law (iid_n d) (iid_weight d)) ds) by (eapply Forall_impl; [|exact Hd]; intros a [_ A]; exact A).
    destruct (product_iid_spec ds Hne G) as (p & E & Gp & _).
    { eapply Forall_impl; [|exact L]. intros a A. exact (law_nonempty _ _ A). }
    assert (p = d) by congruence. subst p. split.
    - destruct d as [q|q w]; [reflexivity|exact Gp].
    - exact (product_law ds d Hne G L H).
  Qed.

  Lemma chains_probability : forall cs c, Forall (fun c => probability (OChain c)) cs -> tensor_markov cs = Ok c -> probability (OChain c).
  Proof.
    intros cs [n t] Hc H.
    assert (Hw : Forall (fun c => wf_chain c /\ stochastic (nrow (snd c)) (snd c)) cs).
    { eapply Forall_impl; [|exact Hc]. intros a [A B]. split; [split; [exact A|]|exact B]. destruct B as (B1 & B2 & _). congruence. }
    pose proof (tensor_markov_stochastic_final cs n t Hw H) as Hs.
    assert (HL : (2 <= length cs)%nat) by (destruct cs as [|? [|? ?]]; try discriminate; simpl; lia).
    destruct (tensor_markov_joint_lemma cs HL) as (n' & t' & E & Hn & Ht & _).
    { eapply Forall_impl; [|exact Hw]. intros a [A _]. exact A. }
    assert (n' = n /\ t' = t) by (rewrite H in E; injection E as <- <-; split; reflexivity). destruct H0; subst n' t'.
    split; cbn [fst snd]; [congruence|]. rewrite Ht. exact Hs.
  Qed.

  Lemma forall2_map_ok : forall A B (g : A -> res B) (P : A -> Prop) (Q : B -> Prop) l os,
      Forall2 (fun y o => g y = Ok o) l os -> Forall P l -> (forall y o, P y -> g y = Ok o -> Q o) -> Forall Q os.
  Proof.
    intros A B g P Q l os H. induction H as [|y o l os E H IH]; intros HP HQ; [constructor|].
    inversion HP; subst. constructor; [apply (HQ y); assumption|apply IH; assumption].
  Qed.

  Lemma combine_probability : forall t os o, Forall probability os -> combine_all t os = Ok o -> probability o.
  Proof.
    intros t os o Ho H. unfold combine_all in H. destruct (to_is t "iid").
    { apply bind_ok in H. destruct H as (ds & E & H). apply bind_ok in H. destruct H as (d & E2 & H). injection H as <-.
      apply all_ok_forall in E. refine (laws_probability ds d _ E2).
      refine (forall2_map_ok _ _ _ _ _ _ _ E Ho _). intros y d0 Hy Ey. apply as_law_ok in Ey. subst y. exact Hy. }
    destruct (to_is t "mc").
    { apply bind_ok in H. destruct H as (ds & E & H). apply bind_ok in H. destruct H as (d & E2 & H). injection H as <-.
      apply all_ok_forall in E. refine (chains_probability ds d _ E2).
      refine (forall2_map_ok _ _ _ _ _ _ _ E Ho _). intros y d0 Hy Ey. apply as_chain_ok in Ey. subst y. exact Hy. }
    destruct (to_is t "gdp"); discriminate.
  Qed.

  Lemma mixture_probability : forall index dists d, probability (OIid index) ->
      (forall i e, (i < iid_n index)%nat -> dists i = Ok e -> probability (OIid e)) ->
      mixture_iid index dists = Ok d -> probability (OIid d).
  Proof.
    intros index dists d [_ [Ip Is]] Hd H. pose proof H as H0.
    destruct (mixture_integrate index dists d H) as (ds & HL & Hds & Hint).
    unfold mixture_iid in H. apply bind_ok in H. destruct H as (items & Ei & H). apply bind_ok in H. destruct H as (nodes & En & H).
    destruct (finite_good _ _ _ H) as [Hd' G]. subst d. split; [exact G|]. cbn [good_iid vlen] in G.
    destruct (mixture_items_spec _ _ _ _ _ Ei) as (ds' & HL' & Hds' & _ & Hin). split.
    - unfold iid_n. cbn [iid_points iid_weight vget]. intros i Hi. rewrite <- G in Hi.
      assert (HI : In (nth i (map fst items) 0) (map fst items)) by (apply nth_In; rewrite map_length; exact Hi).
      apply in_map_iff in HI. destruct HI as (wx & E & HI). rewrite <- E.
      destruct (Hin wx HI) as (e & j & k & _ & Hk & -> & Hj & _ & ->). rewrite Nat.add_0_l.
      apply Rmult_le_pos; [apply Ip, Hk|]. specialize (Hds' k Hk). rewrite Nat.add_0_l in Hds'.
      exact (proj1 (proj2 (Hd _ _ Hk Hds')) j Hj).
    - specialize (Hint (fun _ => 1)). rewrite integrate_sum in Hint. unfold expect in Hint.
      rewrite (rsum_ext _ _ (fun i => iid_weight (Finite nodes (Vec (length items) (fun i => nth i (map fst items) 0))) i)) in Hint
        by (intros; ring).
      etransitivity; [exact Hint|]. etransitivity; [|exact Is]. apply rsum_ext. intros k Hk. specialize (Hds k Hk).
      destruct (Hd _ _ Hk Hds) as [_ [_ Ls]]. rewrite integrate_sum. unfold expect.
      rewrite (rsum_ext _ _ (iid_weight (nth k ds (Equi (Mat 0 0 (fun _ _ => 0)))))) by (intros; cbv beta; apply Rmult_1_r). rewrite Ls. ring.
  Qed.

  Notation discretize := (discretize herm chol_np chol_sp).

  Lemma dget_in : forall V (ds : list (string * V)) s v, dget ds s = Some v -> In (s, v) ds.
  Proof.
    intros V ds s v. induction ds as [|[k w] ds IH]; cbn [dget]; [discriminate|]. destruct (String.eqb_spec s k) as [->|_].
    - intros H. injection H as ->. left. reflexivity.
    - intros H. right. exact (IH H).
  Qed.

  Lemma kwargs_positive : forall k n ks k', positive_orders k -> kwargs_list k n = Ok ks -> In k' ks -> positive_orders k'.
  Proof.
    intros [N m mp o b] n ks k' [_ Hk] H Hi. unfold kwargs_list in H. cbn [kw_options] in H. destruct o as [[k0|l]|].
    - injection H as <-. apply repeat_spec in Hi. subst. exact Hk.
    - destruct (Nat.eqb (length l) n); [|discriminate]. injection H as <-.
      change (everyp positive_orders l) in Hk. rewrite everyp_Forall, Forall_forall in Hk. apply Hk, Hi.
    - injection H as <-. apply repeat_spec in Hi. subst. split; exact I.
  Qed.

  Lemma discretize_probability : forall x to k o, given_probabilities x -> positive_orders k ->
      discretize x to k = Ok o -> probability o.
  Proof.
    assert (N0 : positive_orders no_kw) by (split; exact I).
    intros x. induction x as [mu|d|pi|ppf gh|n|l IH|i ds IHi IH|c|a b c|p|l IH|b] using proc_ind2; intros t k o Hx Hk H;
      cbn [Discretize.discretize] in H.
    - exact (constant_probability _ _ _ _ H).
    - destruct (only_to k); [|discriminate]. exact (law_probability _ _ _ Hx H).
    - destruct (only_to k); [|discriminate]. apply bind_ok in H. destruct H as (d & E & H). refine (law_probability _ _ _ _ H).
      cbn in E. injection E as <-. cbn [given_probabilities] in Hx. split; [reflexivity|]. split.
      + intros j _. cbn. destruct j; cbn; lra.
      + unfold rsum, iid_n; simpl. lra.
    - destruct (only_uni k); [|discriminate]. exact (uni_probability _ _ _ _ _ Hk H).
    - destruct (only_N k); [|discriminate]. exact (normal_to_probability _ _ _ _ Hk H).
    - destruct (only_to k); [|discriminate]. apply bind_ok in H. destruct H as (os & E & H).
      change (combine_all (ToStr "iid") os = Ok o) in H.
      refine (combine_probability _ _ _ _ H). apply all_ok_forall in E.
      change (everyp given_probabilities l) in Hx. rewrite everyp_Forall in Hx.
      clear H. induction E as [|y o' l os Ey E IHE]; [constructor|]. inversion IH; subst. inversion Hx; subst.
      constructor; [|apply IHE; assumption]. match goal with H : forall t k o, given_probabilities y -> _ |- _ => exact (H _ _ _ ltac:(assumption) N0 Ey) end.
    - destruct (only_to k); [|discriminate]. destruct Hx as [Hi Hds].
      change (everyp (fun kv => given_probabilities (snd kv)) ds) in Hds. rewrite everyp_Forall in Hds.
      assert (G : forall d, bind (discretize i (ToStr "iid") no_kw) (fun o =>
                     mixture_of o (map (fun kv => (fst kv, discretize (snd kv) (ToStr "iid") no_kw)) ds)) = Ok d -> probability (OIid d)).
      { intros d E. apply bind_ok in E. destruct E as (oi & Ei & E). unfold mixture_of in E. apply bind_ok in E.
        destruct E as (index & El & E). apply as_law_ok in El. subst oi.
        refine (mixture_probability _ _ _ (IHi _ _ _ Hi N0 Ei) _ E).
        intros j e _ Ej. destruct (dget _ (str j)) as [r|] eqn:Eg; [|discriminate]. apply dget_in in Eg.
        apply in_map_iff in Eg. destruct Eg as ([s y] & Eq & Hy). cbn [fst snd] in Eq. injection Eq as _ <-.
        apply bind_ok in Ej. destruct Ej as (oe & Ee & El). apply as_law_ok in El. subst oe.
        rewrite Forall_forall in IH, Hds. exact (IH _ Hy _ _ _ (Hds _ Hy) N0 Ee). }
      destruct (to_is (given (ToStr "iid") t) "iid").
      + apply bind_ok in H. destruct H as (d & E & H). injection H as <-. exact (G _ E).
      + destruct (to_is (given (ToStr "iid") t) "mc"); [|discriminate].
        apply bind_ok in H. destruct H as (d & E & H). exact (law_probability _ _ _ (G _ E) H).
    - destruct (only_to k); [|discriminate]. exact (chain_probability _ _ _ Hx H).
    - exact (ar1_probability _ _ _ _ _ _ H).
    - exact (var1_probability _ _ _ _ H).
    - destruct (only_options k); [|discriminate]. apply bind_ok in H. destruct H as (ks & Ek & H).
      apply bind_ok in H. destruct H as (os & E & H). refine (combine_probability _ _ _ _ H).
      apply map2_forall in E; [|exact (kwargs_list_length _ _ _ Ek)].
      change (everyp given_probabilities l) in Hx. rewrite everyp_Forall in Hx.
      assert (Hks : forall k', In k' ks -> positive_orders k') by (intros k' Hk'; exact (kwargs_positive _ _ _ _ Hk Ek Hk')).
      clear H Ek. revert E. generalize (chosen l t). intros t' E.
      induction E as [|y o' l os (k' & Hk' & Ey) E IHE]; [constructor|]. inversion IH; subst. inversion Hx; subst.
      constructor; [|apply IHE; assumption].
      match goal with H : forall t k o, given_probabilities y -> _ |- _ => exact (H _ _ _ ltac:(assumption) (Hks _ Hk') Ey) end.
    - discriminate.
  Qed.
End Rule.
