(** Numbers of points, and chains of laws. *)
From Coq Require Import String Reals List Arith Bool Lia Lra.
From Verif.Base Require Import Prelude Sums Arrays Dict.
From Verif.Spec Require Import Product Law Markov Discretize.
From Verif.Model Require Import Discretization Grids Distributions Processes GdpDiscretization Discretize.
From Verif.Proofs Require Import GridProofs LawProofs LawFinal NormalProofs DiscretizeKinds DiscretizeLaws DiscretizeDims.
Import ListNotations.
Open Scope R_scope.

Lemma to_mc_rows : forall d c, iid_to_mc d = Ok c -> fst c = iid_points d /\ forall i j, mget (snd c) i j = iid_weight d j.
Proof.
  intros [p|p w] c H; cbn [iid_to_mc] in H.
  - apply bind_ok in H. destruct H as (f & E & H). destruct (finite_good _ _ _ E) as [-> _]. injection H as <-.
    split; reflexivity.
  - injection H as <-. split; reflexivity.
Qed.

Lemma prodn_repeat : forall n d, prodn (repeat n d) = (n ^ d)%nat.
Proof. intros n d. induction d as [|d IH]; [reflexivity|]. cbn [repeat Nat.pow]. rewrite <- IH. reflexivity. Qed.

Section Counts.
  Variable herm : nat -> res ((nat -> R) * (nat -> R)).
  Variable chol_np chol_sp : mat -> res mat.
  Notation discretize := (discretize herm chol_np chol_sp).

  Lemma chain_of_default : forall x k c, independent x -> (forall mu, x <> PConstant mu) ->
      discretize x (ToStr "mc") k = Ok (OChain c) ->
      exists d, discretize x (ToStr "iid") no_kw = Ok (OIid d) /\ fst c = iid_points d /\
        forall i j, mget (snd c) i j = iid_weight d j.
  Proof.
    intros x k c Hx Hmu H.
    destruct x as [mu|d|pi|ppf gh|n|l|i ds|c0|a b c0|p|l|b]; try destruct Hx.
    - destruct (Hmu mu eq_refl).
    - cbn [Discretize.discretize given] in H. destruct (only_to k); [|discriminate]. exists d. split; [reflexivity|].
      cbn in H. apply bind_ok in H. destruct H as (c' & E & H). injection H as <-. exact (to_mc_rows _ _ E).
    - cbn [Discretize.discretize given] in H. destruct (only_to k); [|discriminate]. apply bind_ok in H. destruct H as (d & E & H).
      cbn in H. apply bind_ok in H. destruct H as (c' & E' & H). injection H as <-. exists d. split; [|exact (to_mc_rows _ _ E')].
      cbn [Discretize.discretize only_to no_kw is_some orb negb given]. rewrite E. reflexivity.
    - cbn [Discretize.discretize given] in H. destruct (only_uni k); [|discriminate]. unfold uni_discretize in H.
      assert (G : bind (discretize_ep ppf 5 MPmedian) (fun d => bind (iid_to_mc d) (fun c => Ok (DChain c))) = Ok (DChain c)).
      { destruct (kw_N k) as [[n|l]|]; cbn [to_is String.eqb Ascii.eqb Bool.eqb univariate_discretize] in H;
          apply bind_ok in H; destruct H as (d & E & H); (destruct d; [discriminate|]); injection H as ->; exact E. }
      apply bind_ok in G. destruct G as (d & E & G). apply bind_ok in G. destruct G as (c' & E' & G). injection G as <-.
      exists d. split; [|exact (to_mc_rows _ _ E')].
      cbn [Discretize.discretize only_uni no_kw is_some orb negb given]. unfold uni_discretize.
      cbn [kw_N kw_method kw_mass_point no_kw to_is String.eqb Ascii.eqb Bool.eqb univariate_discretize]. rewrite E. reflexivity.
    - cbn [Discretize.discretize given] in H. destruct (only_N k); [|discriminate]. unfold normal_discretize_to in H.
      cbn [to_is String.eqb Ascii.eqb Bool.eqb] in H. apply bind_ok in H. destruct H as (cn & E & H). injection H as <-.
      unfold normal_discretize_mc in E. apply bind_ok in E. destruct E as (dn & E & E2). apply bind_ok in E2. destruct E2 as (c' & E2 & E3).
      injection E3 as <-. cbn [fst]. exists (fst dn). split; [|exact (to_mc_rows _ _ E2)].
      cbn [Discretize.discretize only_N no_kw is_some orb negb given]. unfold normal_discretize_to.
      cbn [kw_N no_kw to_is String.eqb Ascii.eqb Bool.eqb]. rewrite E. reflexivity.
    - destruct (laws_no_chain herm chol_np chol_sp _ _ _ H).
    - cbn [Discretize.discretize given] in H. destruct (only_to k); [|discriminate]. cbv zeta in H.
      cbn [to_is String.eqb Ascii.eqb Bool.eqb] in H. apply bind_ok in H. destruct H as (d & E & H).
      unfold law_discretize in H. cbn [to_is String.eqb Ascii.eqb Bool.eqb] in H. apply bind_ok in H. destruct H as (c' & E' & H). injection H as <-.
      exists d. split; [|exact (to_mc_rows _ _ E')].
      cbn [Discretize.discretize only_to no_kw is_some orb negb given to_is String.eqb Ascii.eqb Bool.eqb]. cbv zeta. rewrite E. reflexivity.
    - discriminate.
  Qed.

  Lemma nodes_count : forall orders sigma mu x w s, Forall (fun n => (1 <= n)%nat) orders ->
      gauss_hermite_nodes herm chol_np orders sigma mu = Ok (x, w, s) -> vlen w = prodn orders.
  Proof.
    intros orders sigma mu x w s Ho H. unfold gauss_hermite_nodes in H. apply bind_ok in H. destruct H as (hs & E & H).
    destruct (herms_ok herm orders hs E) as [Hm _]. subst orders.
    assert (K : forall h0 rest, Forall (fun n => (1 <= n)%nat) (map fst (h0 :: rest)) ->
              vlen (fold_left (fun w h => kron_vec w (gh_weights h)) rest (gh_weights h0)) = prodn (map fst (h0 :: rest))).
    { intros h0 rest Hp. destruct (kron_weights _ gh_weights h0 rest) as [K1 _]; [|exact K1].
      rewrite Forall_map in Hp. eapply Forall_impl; [|exact Hp]. intros h Hh. exact Hh. }
    destruct hs as [|h0 [|h1 rest]]; [discriminate| |].
    - destruct (Nat.eqb (nrow sigma) 1 && Nat.eqb (ncol sigma) 1)%bool; [|discriminate].
      destruct (Rlt_dec (mget sigma 0%nat 0%nat) 0); [discriminate|]. injection H as _ <- _. exact (K h0 [] Ho).
    - apply bind_ok in H. destruct H as (y & _ & H). cbv zeta in H. apply bind_ok in H. destruct H as (C & _ & H).
      destruct (negb (Nat.eqb (ncol C) _)); [discriminate|]. destruct (negb (Nat.eqb (vlen mu) (nrow C))); [discriminate|].
      assert (Hw : w = fold_left (fun w h => kron_vec w (gh_weights h)) (h1 :: rest) (gh_weights h0)) by congruence.
      rewrite Hw. exact (K h0 (h1 :: rest) Ho).
  Qed.

  Lemma finite_count : forall p w d, finite_distribution p w = Ok d -> iid_n d = vlen w.
  Proof. intros p w d H. destruct (finite_good _ _ _ H) as [-> G]. symmetry. exact G. Qed.

  Lemma ep_count : forall ppf N mp d, discretize_ep ppf N mp = Ok d -> iid_n d = N.
  Proof.
    intros ppf N mp d H. unfold discretize_ep in H.
    destruct mp; try discriminate H; destruct (Nat.eqb N 0); try discriminate H; injection H as <-; reflexivity.
  Qed.

  (** One variable: N points. *)
  Lemma count_uni : forall ppf gh n m mp d, (1 <= n)%nat ->
      discretize (PUni ppf gh) (ToStr "iid") (Kw (Some (NInt n)) m mp None false) = Ok (OIid d) -> iid_n d = n.
  Proof.
    intros ppf gh n m mp d Hn H. cbn [Discretize.discretize only_uni is_some orb negb given] in H. unfold uni_discretize in H.
    cbn [kw_N to_is String.eqb Ascii.eqb Bool.eqb] in H. apply bind_ok in H. destruct H as (o & E & H). destruct o as [d'|]; [|discriminate].
    injection H as ->. cbn [univariate_discretize] in E. destruct (kw_method _); [| |discriminate]; apply bind_ok in E; destruct E as (d0 & E & E2); injection E2 as ->.
    - destruct gh as [[sigma mu]|]; [|discriminate]. unfold unormal_gh_orders in E. apply bind_ok in E. destruct E as ([[x w] s] & E & E2).
      rewrite (finite_count _ _ _ E2), (nodes_count _ _ _ _ _ _ (Forall_cons _ Hn (Forall_nil _)) E). cbn. lia.
    - exact (ep_count _ _ _ _ E).
  Qed.

  (** Several: N along each coordinate, or the given numbers. *)
  Lemma count_normal : forall nm orders d, positive_orders (Kw (Some orders) None None None false) ->
      discretize (PNormal nm) (ToStr "iid") (Kw (Some orders) None None None false) = Ok (OIid d) ->
      iid_n d = match orders with NInt n => n ^ nrow (nm_Sigma nm) | NList l => prodn l end%nat.
  Proof.
    intros nm orders d [Ho _] H. cbn [Discretize.discretize only_N is_some orb negb given] in H. unfold normal_discretize_to in H.
    cbn [kw_N to_is String.eqb Ascii.eqb Bool.eqb] in H. apply bind_ok in H. destruct H as (dn & E & H). injection H as <-.
    unfold normal_discretize in E. apply bind_ok in E. destruct E as ([[x w] s] & E & E2). apply bind_ok in E2. destruct E2 as (d & E2 & E3).
    injection E3 as <-. cbn [fst]. rewrite (finite_count _ _ _ E2). destruct orders as [n|l].
    - rewrite (nodes_count _ _ _ _ _ _ (repeat_positive n _ Ho) E). apply prodn_repeat.
    - exact (nodes_count _ _ _ _ _ _ Ho E).
  Qed.

  Lemma count_var1 : forall p n c, square_factors chol_sp ->
      discretize (PVar1 p) (ToStr "mc") (Kw (Some (NInt n)) None None None false) = Ok (OChain c) ->
      nrow (fst c) = (n ^ nrow (v_Sigma p))%nat.
  Proof.
    intros p n c Hsp H. cbn [Discretize.discretize given] in H. unfold var1_discretize in H.
    cbn [kw_N to_is String.eqb Ascii.eqb Bool.eqb only_N is_some orb negb] in H.
    apply bind_ok in H. destruct H as (c' & E & H). injection H as <-.
    unfold var1_discretize_mc in E. destruct (scalar_check (v_rho p)); [|discriminate].
    apply bind_ok in E. destruct E as ([nodes P] & E & E2). injection E2 as <-. cbn [fst snd nrow].
    unfold multidimensional_discretization in E. apply bind_ok in E. destruct E as (L & EL & E).
    apply bind_ok in E. destruct E as ([n1 p1] & ER & E). injection E as <- <-. cbn [nrow].
    destruct (Hsp _ _ EL) as (A & _). cbn [patch_zero nrow ncol] in A. rewrite A. reflexivity.
  Qed.

  Lemma count_ar1 : forall a b m n c,
      discretize (PAr1 a b m) (ToStr "mc") (Kw (Some (NInt n)) None None None false) = Ok (OChain c) -> nrow (fst c) = n.
  Proof.
    intros a b m n c H. cbn [Discretize.discretize given] in H. unfold ar1_discretize, var1_discretize in H.
    cbn [kw_N to_is String.eqb Ascii.eqb Bool.eqb only_N is_some orb negb] in H.
    apply bind_ok in H. destruct H as (c' & E & H). injection H as <-.
    unfold var1_discretize_mc in E. destruct (scalar_check _); [|discriminate].
    apply bind_ok in E. destruct E as ([nodes P] & E & E2). injection E2 as <-. cbn [fst snd nrow].
    unfold multidimensional_discretization in E. apply bind_ok in E. destruct E as (L & EL & E).
    apply bind_ok in E. destruct E as ([n1 p1] & ER & E). injection E as <- <-. cbn [v_Sigma nrow ncol]. apply Nat.mul_1_r.
  Qed.

  Lemma count_constant : forall mu n c,
      discretize (PConstant mu) (ToStr "mc") (Kw (Some (NInt n)) None None None false) = Ok (OChain c) -> nrow (fst c) = n.
  Proof. intros mu n c H. cbn in H. injection H as <-. reflexivity. Qed.

  (** The options are not looked at for a chain. *)
  Lemma chain_ignores : forall n m mp,
      (forall ppf gh, discretize (PUni ppf gh) (ToStr "mc") (Kw (Some (NInt n)) m mp None false) = discretize (PUni ppf gh) (ToStr "mc") no_kw) /\
      (forall nm, discretize (PNormal nm) (ToStr "mc") (Kw (Some (NInt n)) None None None false) = discretize (PNormal nm) (ToStr "mc") no_kw).
  Proof. intros n m mp. split; reflexivity. Qed.
End Counts.

(** Order zero: a law without points. *)
Lemma empty_law : forall chol_np chol_sp ppf sigma mu, exists d,
    discretize hermgauss chol_np chol_sp (PUni ppf (Some (sigma, mu))) (ToStr "iid") (Kw (Some (NInt 0)) (Some Mgh) None None false) = Ok (OIid d) /\
    iid_n d = 0%nat /\ ~ probability (OIid d).
Proof.
  intros chol_np chol_sp ppf sigma mu.
  cbn [discretize only_uni is_some orb negb given]. unfold uni_discretize.
  cbn [kw_N kw_method to_is String.eqb Ascii.eqb Bool.eqb univariate_discretize].
  unfold unormal_gh_orders, gauss_hermite_nodes, herms. cbn [map].
  unfold hermgauss at 1. change ((0 + 1) / 2)%nat with 0%nat. cbn [for_range_res bind].
  cbn. destruct (Rlt_dec (sigma * (sigma * 1)) 0) as [A|_].
  { pose proof (Rle_0_sqr sigma) as B. unfold Rsqr in B. lra. }
  cbn. eexists. split; [reflexivity|]. split; [reflexivity|]. intros [_ [_ A]]. cbn in A. lra.
Qed.
