(** Discretisations have the dimension of the process. *)
From Coq Require Import String Reals List Arith Bool Lia Lra.
From Verif.Base Require Import Prelude Sums Arrays Dict.
From Verif.Spec Require Import Product Law Markov Discretize.
From Verif.Model Require Import Discretization Grids Distributions Processes GdpDiscretization Discretize.
From Verif.Proofs Require Import LawProofs LawFinal DiscretizeKinds DiscretizeLaws.
Import ListNotations.
Open Scope R_scope.

Lemma finite_dim : forall p w d, finite_distribution p w = Ok d -> iid_d d = ncol p.
Proof. intros p w d H. destruct (finite_good _ _ _ H) as [-> _]. reflexivity. Qed.

Lemma to_mc_dim : forall d c, iid_to_mc d = Ok c -> ncol (fst c) = iid_d d.
Proof.
  intros [p|p w] c H; cbn [iid_to_mc] in H.
  - apply bind_ok in H. destruct H as (f & E & H). injection H as <-. cbn [finite_to_mc fst]. exact (finite_dim _ _ _ E).
  - injection H as <-. reflexivity.
Qed.

Lemma law_dim : forall n d t o, iid_d d = n -> law_discretize d t = Ok o -> coordinates n o.
Proof.
  intros n d t o <- H. unfold law_discretize in H. destruct (to_is t "iid"); [injection H as <-; reflexivity|].
  destruct (to_is t "mc"); [|discriminate]. apply bind_ok in H. destruct H as (c & E & H). injection H as <-.
  exact (to_mc_dim _ _ E).
Qed.

Lemma constant_dim : forall mu t k o, constant_discretize mu t k = Ok o -> coordinates (vlen mu) o.
Proof.
  intros mu t k o H. unfold constant_discretize in H. destruct (to_is t "iid").
  { apply bind_ok in H. destruct H as (d & E & H). injection H as <-. exact (finite_dim _ _ _ E). }
  destruct (to_is t "mc"); [|discriminate]. destruct (kw_N k) as [[n|l]|]; try discriminate; injection H as <-; reflexivity.
Qed.

Lemma ep_dim : forall ppf N mp d, discretize_ep ppf N mp = Ok d -> iid_d d = 1%nat.
Proof.
  intros ppf N mp d H. unfold discretize_ep in H.
  destruct mp; try discriminate H; destruct (Nat.eqb N 0); try discriminate H; injection H as <-; reflexivity.
Qed.

Lemma column_stack_dim : forall a b c, column_stack a b = Ok c -> ncol c = (ncol a + ncol b)%nat.
Proof. intros a b c H. unfold column_stack in H. destruct (Nat.eqb _ _); [|discriminate]. injection H as <-. reflexivity. Qed.

Lemma tensor2_dim : forall a b c, tensor_markov2 a b = Ok c -> ncol (fst c) = (ncol (fst a) + ncol (fst b))%nat.
Proof.
  intros [n1 t1] [n2 t2] c H. unfold tensor_markov2 in H. destruct (_ && _ && _ && _)%bool; [|discriminate].
  apply bind_ok in H. destruct H as (n & E & H). injection H as <-. cbn [fst]. rewrite (column_stack_dim _ _ _ E). reflexivity.
Qed.

Lemma tensor_dim : forall cs c, tensor_markov cs = Ok c -> ncol (fst c) = sum_list (map (fun m => ncol (fst m)) cs).
Proof.
  assert (F : forall l a c, tensor_markov_fold a l = Ok c -> ncol (fst c) = (ncol (fst a) + sum_list (map (fun m => ncol (fst m)) l))%nat).
  { induction l as [|m l IH]; intros a c H; cbn [tensor_markov_fold] in H.
    - injection H as <-. cbn. lia.
    - apply bind_ok in H. destruct H as (b & E & H). rewrite (IH _ _ H), (tensor2_dim _ _ _ E).
      unfold sum_list. cbn [map fold_right]. lia. }
  intros cs c H. destruct cs as [|a [|b l]]; try discriminate. exact (F _ _ _ H).
Qed.

Lemma product_dim : forall ds d, product_iid ds = Ok d -> iid_d d = sum_list (map iid_d ds).
Proof.
  intros ds d H. unfold product_iid in H. destruct ds as [|f0 rest]; [discriminate|]. cbv zeta in H.
  rewrite (finite_dim _ _ _ H). cbn [ncol]. generalize (f0 :: rest). clear. intros l. induction l as [|f l IH]; [reflexivity|].
  unfold sum_dims, sum_list in *. cbn [map fold_right]. rewrite IH. reflexivity.
Qed.

Lemma mixture_dim : forall n index dists d, (forall i e, (i < iid_n index)%nat -> dists i = Ok e -> iid_d e = n) ->
    mixture_iid index dists = Ok d -> iid_d d = n.
Proof.
  intros n index dists d Hd H. unfold mixture_iid in H. apply bind_ok in H. destruct H as (items & Ei & H).
  apply bind_ok in H. destruct H as (nodes & En & H). rewrite (finite_dim _ _ _ H).
  destruct (mixture_items_spec _ _ _ _ _ Ei) as (ds & _ & Hds & _ & Hin).
  destruct items as [|wx items]; [discriminate|]. cbn [map] in En. unfold mat_of_rows in En. destruct (forallb _ _); [|discriminate].
  assert (En' : ncol nodes = length (snd wx)) by (injection En as <-; reflexivity). rewrite En'.
  destruct (Hin wx (or_introl eq_refl)) as (e & j & k & _ & Hk & -> & _ & -> & _).
  unfold iid_point. rewrite row_length. apply (Hd k); [exact Hk|]. exact (Hds k Hk).
Qed.

Section Dims.
  Variable herm : nat -> res ((nat -> R) * (nat -> R)).
  Variable chol_np chol_sp : mat -> res mat.
  Hypothesis Hnp : square_factors chol_np.
  Hypothesis Hsp : square_factors chol_sp.
  Notation discretize := (discretize herm chol_np chol_sp).

  Lemma nodes_dim : forall orders sigma mu x w s, gauss_hermite_nodes herm chol_np orders sigma mu = Ok (x, w, s) -> ncol x = nrow sigma.
  Proof.
    intros orders sigma mu x w s H. unfold gauss_hermite_nodes in H. apply bind_ok in H. destruct H as (hs & E & H).
    destruct hs as [|h0 [|h1 rest]]; [discriminate| |].
    - destruct (Nat.eqb_spec (nrow sigma) 1) as [E1|]; [|discriminate]. destruct (Nat.eqb (ncol sigma) 1); [|discriminate]. cbn [andb] in H.
      destruct (Rlt_dec (mget sigma 0%nat 0%nat) 0); [discriminate|]. injection H as <- _ _. symmetry. exact E1.
    - apply bind_ok in H. destruct H as (y & _ & H). cbv zeta in H. apply bind_ok in H. destruct H as (C & EC & H).
      destruct (negb (Nat.eqb (ncol C) (length orders))); [discriminate|]. destruct (negb (Nat.eqb (vlen mu) (nrow C))); [discriminate|].
      assert (Hx : ncol x = nrow C) by (injection H as <- _ _; reflexivity). rewrite Hx.
      destruct (Hnp _ _ EC) as (_ & -> & _). reflexivity.
  Qed.

  Lemma normal_dim : forall n orders dn, normal_discretize herm chol_np n orders = Ok dn -> iid_d (fst dn) = nrow (nm_Sigma n).
  Proof.
    intros n orders dn H. unfold normal_discretize in H. apply bind_ok in H. destruct H as ([[x w] s] & E & H).
    apply bind_ok in H. destruct H as (d & E' & H). injection H as <-. cbn [fst]. rewrite (finite_dim _ _ _ E').
    exact (nodes_dim _ _ _ _ _ _ E).
  Qed.

  Lemma unormal_dim : forall sigma mu orders d, unormal_gh_orders herm chol_np sigma mu orders = Ok d -> iid_d d = 1%nat.
  Proof.
    intros sigma mu orders d H. unfold unormal_gh_orders in H. apply bind_ok in H. destruct H as ([[x w] s] & E & H).
    rewrite (finite_dim _ _ _ H). exact (nodes_dim _ _ _ _ _ _ E).
  Qed.

  Lemma univariate_dim : forall ppf gh t n m mp d, (forall d, gh n = Ok d -> iid_d d = 1%nat) ->
      univariate_discretize ppf gh t n m mp = Ok d -> coordinates 1 (out_of d).
  Proof.
    intros ppf gh t n m mp d Hg H. destruct t; cbn [univariate_discretize] in H; [| |discriminate].
    - destruct m; [| |discriminate]; apply bind_ok in H; destruct H as (a & E & H); injection H as <-; cbn [out_of coordinates].
      + exact (Hg _ E).
      + exact (ep_dim _ _ _ _ E).
    - apply bind_ok in H; destruct H as (a & E & H). apply bind_ok in H; destruct H as (c & E' & H). injection H as <-.
      cbn [out_of coordinates]. rewrite (to_mc_dim _ _ E'). exact (ep_dim _ _ _ _ E).
  Qed.

  Lemma uni_dim : forall ppf gh t k o, uni_discretize herm chol_np ppf gh t k = Ok o -> coordinates 1 o.
  Proof.
    intros ppf gh t k o H. unfold uni_discretize in H.
    assert (G : forall orders d, match gh with Some (sigma, mu) => unormal_gh_orders herm chol_np sigma mu orders | None => Err ExcAttribute end = Ok d ->
              iid_d d = 1%nat).
    { intros orders d E. destruct gh as [[sigma mu]|]; [|discriminate]. exact (unormal_dim _ _ _ _ E). }
    destruct (kw_N k) as [[n|l]|].
    - apply bind_ok in H. destruct H as (d & E & H). injection H as <-. refine (univariate_dim _ _ _ _ _ _ _ _ E). intros d0 E0. exact (G _ _ E0).
    - destruct (to_is t "iid").
      + destruct (kw_method k); [| |discriminate].
        * apply bind_ok in H. destruct H as (d & E & H). injection H as <-. exact (G _ _ E).
        * destruct (kw_mass_point k); discriminate.
      + apply bind_ok in H. destruct H as (d & E & H). injection H as <-. refine (univariate_dim _ _ _ _ _ _ _ _ E). intros d0 E0. exact (G _ _ E0).
    - apply bind_ok in H. destruct H as (d & E & H). injection H as <-. refine (univariate_dim _ _ _ _ _ _ _ _ E). intros d0 E0. exact (G _ _ E0).
  Qed.

  Lemma normal_to_dim : forall n t k o, normal_discretize_to herm chol_np n t k = Ok o -> coordinates (nrow (nm_Sigma n)) o.
  Proof.
    intros n t k o H. unfold normal_discretize_to in H. destruct (to_is t "iid").
    - apply bind_ok in H. destruct H as (dn & E & H). injection H as <-. exact (normal_dim _ _ _ E).
    - destruct (to_is t "mc"); [|discriminate]. apply bind_ok in H. destruct H as (cn & E & H). injection H as <-.
      unfold normal_discretize_mc in E. apply bind_ok in E. destruct E as (dn & E & E2). apply bind_ok in E2. destruct E2 as (c & E2 & E3).
      injection E3 as <-. cbn [fst coordinates]. rewrite (to_mc_dim _ _ E2). exact (normal_dim _ _ _ E).
  Qed.

  Lemma var1_mc_dim : forall p n c, var1_discretize_mc chol_sp p n = Ok c -> ncol (fst c) = nrow (v_Sigma p).
  Proof.
    intros p n c H. unfold var1_discretize_mc in H. destruct (scalar_check (v_rho p)); [|discriminate].
    apply bind_ok in H. destruct H as ([nodes P] & E & H). injection H as <-. cbn [fst snd ncol].
    unfold multidimensional_discretization in E. apply bind_ok in E. destruct E as (L & EL & E).
    apply bind_ok in E. destruct E as ([n1 p1] & ER & E). injection E as <- <-. cbn [ncol].
    destruct (Hsp _ _ EL) as (A & _). cbn [patch_zero nrow ncol] in A. symmetry. exact A.
  Qed.

  Lemma var1_dim : forall p t k o, var1_discretize herm chol_np chol_sp p t k = Ok o -> coordinates (nrow (v_Sigma p)) o.
  Proof.
    intros p t k o H. unfold var1_discretize in H. destruct (to_is t "mc").
    { destruct (negb (only_N k)); [discriminate|].
      destruct (kw_N k) as [[n|l]|]; try (apply bind_ok in H; destruct H as (c & E & H); injection H as <-; exact (var1_mc_dim _ _ _ E)).
      destruct (scalar_check (v_rho p)); [|discriminate]. apply bind_ok in H. destruct H as (c & _ & H). discriminate. }
    destruct (to_is t "gdp"); [|injection H as <-; exact I].
    destruct (negb (only_N k)); [discriminate|]. apply bind_ok in H. destruct H as (g & Eg & _). destruct (var1_gdp_never _ _ _ _ _ Eg).
  Qed.

  Lemma ar1_dim : forall a b c t k o, ar1_discretize herm chol_np chol_sp a b c t k = Ok o -> coordinates 1 o.
  Proof.
    intros a b c t k o H. unfold ar1_discretize in H. destruct (to_is t "gdp"); [|exact (var1_dim _ _ _ _ H)].
    destruct (negb (only_N k)); [discriminate|]. apply bind_ok in H. destruct H as (g & Eg & _).
    rewrite (GdpProofs.ar1_never herm chol_np) in Eg. discriminate.
  Qed.

  Lemma chain_dim : forall c t o, chain_discretize c t = Ok o -> coordinates (ncol (fst c)) o.
  Proof.
    intros c t o H. unfold chain_discretize in H. destruct (to_is t "gdp").
    - injection H as <-. split; [reflexivity|]. intros i j. apply row_length.
    - destruct (to_is t "mc"); [|discriminate]. injection H as <-. reflexivity.
  Qed.

  Lemma combine_dim : forall t os ns o, Forall2 coordinates ns os -> combine_all t os = Ok o -> coordinates (sum_list ns) o.
  Proof.
    intros t os ns o Ho H. unfold combine_all in H. destruct (to_is t "iid").
    { apply bind_ok in H. destruct H as (ds & E & H). apply bind_ok in H. destruct H as (d & E2 & H). injection H as <-.
      apply all_ok_forall in E. cbn [coordinates]. rewrite (product_dim _ _ E2). f_equal. clear - Ho E. revert ds E.
      induction Ho as [|n o ns os A Ho IH]; intros ds E; inversion E as [|? d ? ds' E1 E2]; subst; [reflexivity|].
      cbn [map]. apply as_law_ok in E1. subst o. cbn [coordinates] in A. rewrite A, (IH _ E2). reflexivity. }
    destruct (to_is t "mc").
    { apply bind_ok in H. destruct H as (ds & E & H). apply bind_ok in H. destruct H as (d & E2 & H). injection H as <-.
      apply all_ok_forall in E. cbn [coordinates]. rewrite (tensor_dim _ _ E2). f_equal. clear - Ho E. revert ds E.
      induction Ho as [|n o ns os A Ho IH]; intros ds E; inversion E as [|? d ? ds' E1 E2]; subst; [reflexivity|].
      cbn [map]. apply as_chain_ok in E1. subst o. cbn [coordinates] in A. rewrite A, (IH _ E2). reflexivity. }
    destruct (to_is t "gdp"); discriminate.
  Qed.

  Lemma read_ok : forall A (g : A -> res (option nat)) l os ds, all_ok (map g l) = Ok os -> all_ok (map read_d os) = Ok ds ->
      Forall2 (fun y d => g y = Ok (Some d)) l ds.
  Proof.
    intros A g l os ds H1 H2. apply all_ok_forall in H1. apply all_ok_forall in H2. revert ds H2.
    induction H1 as [|y o l os E H1 IH]; intros ds H2; inversion H2 as [|? d ? ds' E' H2']; subst; constructor; [|apply IH; exact H2'].
    destruct o; [|discriminate]. injection E' as <-. exact E.
  Qed.

  Lemma discretize_dim : forall x to k n o, construct x = Ok (Some n) -> discretize x to k = Ok o -> coordinates n o.
  Proof.
    intros x. induction x as [mu|d|pi|ppf gh|nm|l IH|i ds IHi IH|c|a b c|p|l IH|b] using proc_ind2; intros t k n o Hc H;
      cbn [Discretize.discretize] in H; cbn [construct] in Hc.
    - injection Hc as <-. exact (constant_dim _ _ _ _ H).
    - destruct (only_to k); [|discriminate]. injection Hc as <-. exact (law_dim _ _ _ _ eq_refl H).
    - discriminate.
    - destruct (only_uni k); [|discriminate]. injection Hc as <-. exact (uni_dim _ _ _ _ _ H).
    - destruct (only_N k); [|discriminate]. injection Hc as <-. exact (normal_to_dim _ _ _ _ H).
    - apply bind_ok in Hc. destruct Hc as (cs & E1 & Hc). apply bind_ok in Hc. destruct Hc as (ns & E2 & Hc). injection Hc as <-.
      pose proof (read_ok _ _ _ _ _ E1 E2) as R. clear E1 E2 cs.
      destruct (only_to k); [|discriminate]. apply bind_ok in H. destruct H as (os & E & H).
      change (combine_all (ToStr "iid") os = Ok o) in H.
      refine (combine_dim _ _ _ _ _ H). apply all_ok_forall in E. clear H. revert os E.
      induction R as [|y d l ns Ed R IHR]; intros os E; inversion E as [|? o' ? os' Ey E']; subst; [constructor|]. inversion IH; subst.
      constructor; [|apply IHR; assumption]. match goal with H : forall t k n o, construct y = _ -> _ |- _ => exact (H _ _ _ _ Ed Ey) end.
    - apply bind_ok in Hc. destruct Hc as (ci & Ei & Hc). apply bind_ok in Hc. destruct Hc as (cs & E1 & Hc).
      apply bind_ok in Hc. destruct Hc as (ns & E2 & Hc). pose proof (read_ok _ _ _ _ _ E1 E2) as R. clear E1 E2 cs.
      assert (Hall : forall kv, In kv ds -> construct (snd kv) = Ok (Some n)).
      { destruct ns as [|m ns]; [discriminate|]. destruct (forallb (Nat.eqb m) ns) eqn:Ef; [|discriminate]. injection Hc as <-.
        assert (Hm : Forall (fun d => d = m) (m :: ns)).
        { constructor; [reflexivity|]. rewrite Forall_forall. intros d Hd. rewrite forallb_forall in Ef. specialize (Ef _ Hd).
          apply Nat.eqb_eq in Ef. symmetry. exact Ef. }
        clear - R Hm. induction R as [|kv d ds ns' E R IHR]; intros kv' Hi; [destruct Hi|]. inversion Hm; subst.
        destruct Hi as [<-|Hi]; [exact E|apply IHR; assumption]. }
      destruct (only_to k); [|discriminate].
      assert (G : forall d, bind (discretize i (ToStr "iid") no_kw) (fun o =>
                     mixture_of o (map (fun kv => (fst kv, discretize (snd kv) (ToStr "iid") no_kw)) ds)) = Ok d -> iid_d d = n).
      { intros d E. apply bind_ok in E. destruct E as (oi & _ & E). unfold mixture_of in E. apply bind_ok in E.
        destruct E as (index & _ & E). refine (mixture_dim _ _ _ _ _ E).
        intros j e _ Ej. destruct (dget _ (str j)) as [r|] eqn:Eg; [|discriminate]. apply dget_in in Eg.
        apply in_map_iff in Eg. destruct Eg as ([s y] & Eq & Hy). cbn [fst snd] in Eq. injection Eq as _ <-.
        apply bind_ok in Ej. destruct Ej as (oe & Ee & El). apply as_law_ok in El. subst oe.
        rewrite Forall_forall in IH. exact (IH _ Hy _ _ _ _ (Hall _ Hy) Ee). }
      destruct (to_is (given (ToStr "iid") t) "iid").
      + apply bind_ok in H. destruct H as (d & E & H). injection H as <-. exact (G _ E).
      + destruct (to_is (given (ToStr "iid") t) "mc"); [|discriminate].
        apply bind_ok in H. destruct H as (d & E & H). exact (law_dim _ _ _ _ (G _ E) H).
    - destruct (only_to k); [|discriminate]. injection Hc as <-. exact (chain_dim _ _ _ H).
    - injection Hc as <-. exact (ar1_dim _ _ _ _ _ _ H).
    - injection Hc as <-. exact (var1_dim _ _ _ _ H).
    - apply bind_ok in Hc. destruct Hc as (cs & E1 & Hc). apply bind_ok in Hc. destruct Hc as (ns & E2 & Hc). injection Hc as <-.
      pose proof (read_ok _ _ _ _ _ E1 E2) as R. clear E1 E2 cs.
      destruct (only_options k); [|discriminate]. apply bind_ok in H. destruct H as (ks & Ek & H).
      apply bind_ok in H. destruct H as (os & E & H). refine (combine_dim _ _ _ _ _ H).
      apply map2_forall in E; [|exact (kwargs_list_length _ _ _ Ek)]. clear H Ek. revert E. generalize (chosen l t). intros t' E.
      revert os E.
      induction R as [|y d l ns Ed R IHR]; intros os E; inversion E as [|? o' ? os' (k' & _ & Ey) E']; subst; [constructor|]. inversion IH; subst.
      constructor; [|apply IHR; assumption]. match goal with H : forall t k n o, construct y = _ -> _ |- _ => exact (H _ _ _ _ Ed Ey) end.
    - discriminate.
  Qed.
End Dims.
