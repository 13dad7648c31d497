From Coq Require Import String Reals List Arith Lia Lra FunctionalExtensionality.
From Verif.Base Require Import Prelude Sums Arrays Ext.
From Verif.Spec Require Import Product Law Markov.
From Verif.Model Require Import Discretization Grids Distributions.
From Verif.Proofs Require Import GridProofs DivMod LawProofs.
Import ListNotations.
Open Scope R_scope.

(** ** Products of sums *)
Lemma prod_sums_ones : forall dims fs, length fs = length dims ->
    (forall k, (k < length dims)%nat -> rsum (nth k dims 0%nat) (nth k fs (fun _ => 0)) = 1) ->
    prod_sums dims fs = 1.
Proof.
  induction dims as [|d ds IH]; intros [|f fs] Hl H; simpl in *; try lia; try reflexivity.
  rewrite (H 0%nat) by lia. rewrite IH; [ring|lia|]. intros k Hk. apply (H (S k)). lia.
Qed.

Lemma prod_sums_zero : forall dims fs k, length fs = length dims -> (k < length dims)%nat ->
    rsum (nth k dims 0%nat) (nth k fs (fun _ => 0)) = 0 -> prod_sums dims fs = 0.
Proof.
  induction dims as [|d ds IH]; intros [|f fs] k Hl Hk H; simpl in *; try lia.
  destruct k as [|k].
  - rewrite H. ring.
  - rewrite (IH fs k); [ring|lia|lia|exact H].
Qed.

Lemma mul_at_nth_same : forall fs k g, (k < length fs)%nat ->
    nth k (mul_at k g fs) (fun _ => 0) = (fun i => nth k fs (fun _ => 0) i * g i).
Proof.
  induction fs as [|f fs IH]; intros [|k] g Hk; simpl in *; try lia; try reflexivity. apply IH. lia.
Qed.

Lemma mul_at_nth_other : forall fs k j g, j <> k ->
    nth j (mul_at k g fs) (fun _ => 0) = nth j fs (fun _ => 0).
Proof.
  induction fs as [|f fs IH]; intros [|k] [|j] g H; simpl in *; try lia; try reflexivity. apply IH. lia.
Qed.

Lemma prod_sums_mul_at : forall dims fs k g, length fs = length dims -> (k < length dims)%nat ->
    (forall j, (j < length dims)%nat -> rsum (nth j dims 0%nat) (nth j fs (fun _ => 0)) = 1) ->
    prod_sums dims (mul_at k g fs) = rsum (nth k dims 0%nat) (fun i => nth k fs (fun _ => 0) i * g i).
Proof.
  induction dims as [|d ds IH]; intros [|f fs] k g Hl Hk H; simpl in *; try lia.
  destruct k as [|k]; simpl.
  - rewrite prod_sums_ones; [ring|lia|]. intros j Hj. apply (H (S j)). lia.
  - rewrite (H 0%nat) by lia. rewrite IH; [ring|lia|lia|]. intros j Hj. apply (H (S j)). lia.
Qed.

(** ** The product rule *)
Local Notation rule := (nat * ((nat -> R) * (nat -> R)))%type (only parsing).
Definition exact (h : rule) : Prop := exact_rule (fst h) (fst (snd h)) (snd (snd h)).
Definition h0 : rule := (0%nat, ((fun _ => 0), (fun _ => 0))).

Lemma sqrt_PI_pos : 0 < sqrt PI.
Proof. apply sqrt_lt_R0, PI_RGT_0. Qed.

Lemma exact_pos : forall h, exact h -> (0 < fst h)%nat.
Proof. intros [n xw] [H _]. simpl in *. destruct n; [simpl in H; pose proof sqrt_PI_pos; lra|lia]. Qed.

Lemma gh_sums : forall h, exact h ->
    rsum (fst h) (vget (gh_weights h)) = 1 /\
    rsum (fst h) (fun i => vget (gh_weights h) i * nth i (gh_points h) 0) = 0 /\
    rsum (fst h) (fun i => vget (gh_weights h) i * (nth i (gh_points h) 0 * nth i (gh_points h) 0)) = 1.
Proof.
  intros h (H1 & H2 & H3). pose proof sqrt_PI_pos as Hpi.
  assert (Hn : forall i, (i < fst h)%nat -> nth i (gh_points h) 0 = fst (snd h) i * sqrt 2).
  { intros i Hi. unfold gh_points.
    rewrite (nth_indep _ 0 ((fun i => fst (snd h) i * sqrt 2) 0%nat)) by (rewrite map_length, seq_length; exact Hi).
    rewrite (map_nth (fun i => fst (snd h) i * sqrt 2)), seq_nth by exact Hi. reflexivity. }
  split; [|split].
  - unfold gh_weights. cbn [vget]. unfold Rdiv. rewrite rsum_scal_r, H1. field. lra.
  - rewrite (rsum_ext _ _ (fun i => (sqrt 2 / sqrt PI) * (snd (snd h) i * fst (snd h) i))).
    + rewrite rsum_scal, H2. ring.
    + intros i Hi. rewrite Hn by exact Hi. unfold gh_weights. cbn [vget]. field. lra.
  - rewrite (rsum_ext _ _ (fun i => (2 / sqrt PI) * (snd (snd h) i * fst (snd h) i ^ 2))).
    + rewrite rsum_scal, H3. field. lra.
    + intros i Hi. rewrite Hn by exact Hi. unfold gh_weights. cbn [vget].
      replace (fst (snd h) i * sqrt 2 * (fst (snd h) i * sqrt 2)) with (fst (snd h) i ^ 2 * (sqrt 2 * sqrt 2)) by ring.
      rewrite sqrt_sqrt by lra. field. lra.
Qed.

Section Multi.
  Variable hs : list rule.
  Hypothesis Hex : Forall exact hs.
  Let dims := map (fun h => vlen (gh_weights h)) hs.
  Let ws := map (fun h => vget (gh_weights h)) hs.
  Let W (r : nat) : R := prodl ws (digits dims r).
  Variable X : nat -> nat -> R.
  Hypothesis HX : enumerates 0 (map gh_points hs) X.

  Lemma dims_axes : map (@length R) (map gh_points hs) = dims.
  Proof.
    unfold dims. rewrite map_map. apply map_ext. intros h. unfold gh_points.
    rewrite map_length, seq_length. reflexivity.
  Qed.

  Lemma ws_nth : forall k, (k < length hs)%nat -> nth k ws (fun _ => 0) = vget (gh_weights (nth k hs h0)).
  Proof.
    intros k Hk. unfold ws.
    rewrite (nth_indep _ (fun _ => 0) ((fun h => vget (gh_weights h)) h0)) by (rewrite map_length; exact Hk).
    apply (map_nth (fun h => vget (gh_weights h))).
  Qed.

  Lemma dims_nth : forall k, (k < length hs)%nat -> nth k dims 0%nat = fst (nth k hs h0).
  Proof.
    intros k Hk. unfold dims.
    rewrite (nth_indep _ 0%nat ((fun h => vlen (gh_weights h)) h0)) by (rewrite map_length; exact Hk).
    rewrite (map_nth (fun h => vlen (gh_weights h))). reflexivity.
  Qed.

  Lemma hs_exact : forall k, (k < length hs)%nat -> exact (nth k hs h0).
  Proof. intros k Hk. rewrite Forall_forall in Hex. apply Hex, nth_In, Hk. Qed.

  Lemma ws_sum : forall k, (k < length dims)%nat -> rsum (nth k dims 0%nat) (nth k ws (fun _ => 0)) = 1.
  Proof.
    intros k Hk. unfold dims in Hk. rewrite map_length in Hk. rewrite ws_nth, dims_nth by exact Hk.
    apply gh_sums, hs_exact, Hk.
  Qed.

  Lemma lens : length ws = length dims.
  Proof. unfold ws, dims. rewrite !map_length. reflexivity. Qed.

  Lemma W_sum : rsum (prodn dims) W = 1.
  Proof. unfold W. rewrite rsum_prodl by apply lens. apply prod_sums_ones; [apply lens|apply ws_sum]. Qed.

  Definition xk (k i : nat) : R := nth i (gh_points (nth k hs h0)) 0.

  Lemma X_digit : forall r k, (r < prodn dims)%nat -> (k < length hs)%nat -> X r k = xk k (nth k (digits dims r) 0%nat).
  Proof.
    intros r k Hr Hk. rewrite (enumerates_digits R 0 _ X r k HX).
    - rewrite dims_axes. unfold xk.
      rewrite (nth_indep _ [] (gh_points h0)) by (rewrite map_length; exact Hk).
      rewrite (map_nth gh_points). reflexivity.
    - rewrite dims_axes. exact Hr.
    - rewrite map_length. exact Hk.
  Qed.

  Lemma W_mean : forall k, (k < length hs)%nat -> rsum (prodn dims) (fun r => W r * X r k) = 0.
  Proof.
    intros k Hk.
    rewrite (rsum_ext _ _ (fun r => prodl (mul_at k (xk k) ws) (digits dims r))).
    - rewrite rsum_prodl by (rewrite mul_at_length; apply lens).
      rewrite prod_sums_mul_at; [|apply lens|unfold dims; rewrite map_length; exact Hk|apply ws_sum].
      rewrite ws_nth, dims_nth by exact Hk. apply gh_sums, hs_exact, Hk.
    - intros r Hr. rewrite prodl_mul_at; [|unfold ws; rewrite map_length; exact Hk|rewrite digits_length, lens; reflexivity].
      rewrite X_digit by assumption. reflexivity.
  Qed.

  Lemma W_cov : forall k l, (k < length hs)%nat -> (l < length hs)%nat ->
      rsum (prodn dims) (fun r => W r * (X r k * X r l)) = if Nat.eqb k l then 1 else 0.
  Proof.
    intros k l Hk Hl. destruct (Nat.eqb_spec k l) as [<-|Hne].
    - rewrite (rsum_ext _ _ (fun r => prodl (mul_at k (fun i => xk k i * xk k i) ws) (digits dims r))).
      + rewrite rsum_prodl by (rewrite mul_at_length; apply lens).
        rewrite prod_sums_mul_at; [|apply lens|unfold dims; rewrite map_length; exact Hk|apply ws_sum].
        rewrite ws_nth, dims_nth by exact Hk. apply gh_sums, hs_exact, Hk.
      + intros r Hr. rewrite prodl_mul_at; [|unfold ws; rewrite map_length; exact Hk|rewrite digits_length, lens; reflexivity].
        rewrite X_digit by assumption. reflexivity.
    - rewrite (rsum_ext _ _ (fun r => prodl (mul_at l (xk l) (mul_at k (xk k) ws)) (digits dims r))).
      + rewrite rsum_prodl by (rewrite !mul_at_length; apply lens).
        apply (prod_sums_zero _ _ k); [rewrite !mul_at_length; apply lens|unfold dims; rewrite map_length; exact Hk|].
        rewrite mul_at_nth_other by exact Hne.
        rewrite mul_at_nth_same by (unfold ws; rewrite map_length; exact Hk).
        rewrite ws_nth, dims_nth by exact Hk. apply gh_sums, hs_exact, Hk.
      + intros r Hr.
        rewrite !prodl_mul_at; rewrite ?mul_at_length; try (unfold ws; rewrite map_length; assumption);
          try (rewrite digits_length, lens; reflexivity).
        rewrite (X_digit r k), (X_digit r l) by assumption. unfold W. ring.
  Qed.
End Multi.

(** Moments of an affine image [m i + sum_j C i j X j] of standardised coordinates. *)
Lemma affine_mean : forall n d W (X : nat -> nat -> R) c m,
    rsum n W = 1 -> (forall j, (j < d)%nat -> rsum n (fun r => W r * X r j) = 0) ->
    rsum n (fun r => W r * (rsum d (fun j => c j * X r j) + m)) = m.
Proof.
  intros n d W X c m H1 H2.
  rewrite (rsum_ext _ _ (fun r => rsum d (fun j => c j * (W r * X r j)) + W r * m)).
  - rewrite rsum_plus, rsum_scal_r, H1, rsum_swap.
    rewrite (rsum_0 d); [ring|]. intros j Hj. rewrite rsum_scal, H2 by exact Hj. ring.
  - intros r Hr. rewrite Rmult_plus_distr_l, <- rsum_scal. f_equal. apply rsum_ext. intros; ring.
Qed.

Lemma affine_cov : forall n d W (X : nat -> nat -> R) c e,
    (forall j l, (j < d)%nat -> (l < d)%nat -> rsum n (fun r => W r * (X r j * X r l)) = if Nat.eqb j l then 1 else 0) ->
    rsum n (fun r => W r * (rsum d (fun j => c j * X r j) * rsum d (fun j => e j * X r j)))
    = rsum d (fun j => c j * e j).
Proof.
  intros n d W X c e H.
  rewrite (rsum_ext n _ (fun r => rsum d (fun j => rsum d (fun l => c j * e l * (W r * (X r j * X r l)))))).
  - rewrite rsum_swap. apply rsum_ext. intros j Hj. rewrite rsum_swap.
    rewrite (rsum_single d j _ Hj).
    + rewrite rsum_scal, H by assumption. rewrite Nat.eqb_refl. ring.
    + intros l Hl Hne. rewrite rsum_scal, H by assumption. destruct (Nat.eqb_spec j l); [congruence|ring].
  - intros r Hr. rewrite <- rsum_scal_r. rewrite <- rsum_scal. apply rsum_ext. intros j Hj.
    rewrite <- rsum_scal, <- rsum_scal. apply rsum_ext. intros l Hl. ring.
Qed.

(** ** Multivariate normal laws *)
Lemma coord_point : forall p w k i, (k < ncol p)%nat -> coord k (iid_point (Finite p w) i) = mget p i k.
Proof.
  intros p w k i Hk. unfold coord, iid_point, row. cbn [iid_points].
  rewrite (nth_indep _ 0 (mget p i 0%nat)) by (rewrite map_length, seq_length; exact Hk).
  rewrite (map_nth (mget p i)), seq_nth by exact Hk. reflexivity.
Qed.

Section Normal.
  Variable herm : nat -> res ((nat -> R) * (nat -> R)).
  Variable chol : mat -> res mat.

  Lemma herms_ok : forall orders hs, herms herm orders = Ok hs ->
      map fst hs = orders /\ Forall (fun h => herm (fst h) = Ok (snd h)) hs.
  Proof.
    induction orders as [|o os IH]; intros hs H; cbn [herms] in H.
    - injection H as <-. split; constructor.
    - destruct (herm o) as [h|] eqn:Eh; [|discriminate]. cbn [bind] in H.
      destruct (herms herm os) as [l|] eqn:El; [|discriminate]. cbn [bind] in H. injection H as <-.
      destruct (IH l eq_refl) as [I1 I2]. split; [simpl; rewrite I1; reflexivity|]. constructor; assumption.
  Qed.

  Lemma herms_succeed : forall orders, Forall (fun o => exists h, herm o = Ok h) orders ->
      exists hs, herms herm orders = Ok hs.
  Proof.
    induction 1 as [|o os [h Hh] H [hs IH]]; [exists []; reflexivity|].
    exists ((o, h) :: hs). cbn [herms]. rewrite Hh. cbn [bind]. rewrite IH. reflexivity.
  Qed.

  Lemma herms_exact : forall orders hs,
      herms herm orders = Ok hs ->
      Forall (fun o => forall h, herm o = Ok h -> exact_rule o (fst h) (snd h)) orders ->
      Forall exact hs.
  Proof.
    intros orders hs H He. destruct (herms_ok _ _ H) as [H1 H2]. subst orders. rewrite Forall_map in He.
    rewrite Forall_forall in *. intros h Hh. apply He; [exact Hh|apply H2, Hh].
  Qed.

  Lemma normal_multi : forall (self : normal) orders C,
      (2 <= length orders)%nat ->
      Forall (fun o => exists h, herm o = Ok h) orders ->
      Forall (fun o => forall h, herm o = Ok h -> exact_rule o (fst h) (snd h)) orders ->
      length orders = nrow (nm_Sigma self) -> ncol (nm_Sigma self) = nrow (nm_Sigma self) ->
      vlen (nm_Mu self) = nrow (nm_Sigma self) ->
      chol (patch_in_place (nm_Sigma self)) = Ok C ->
      is_cholesky_lower (nrow (nm_Sigma self)) (patch_in_place (nm_Sigma self)) C ->
      exists d, normal_discretize herm chol self orders
                = Ok (d, {| nm_Sigma := patch_in_place (nm_Sigma self); nm_Mu := nm_Mu self |}) /\
        iid_n d = prodn orders /\ iid_d d = nrow (nm_Sigma self) /\
        rsum (iid_n d) (iid_weight d) = 1 /\
        (forall i, (i < nrow (nm_Sigma self))%nat ->
           mean (iid_n d) (iid_weight d) (iid_point d) i
           = if zero_column (nm_Sigma self) i then vget (nm_Mu self) i
             else 2 * vget (nm_Mu self) i) /\
        (forall i j, (i < nrow (nm_Sigma self))%nat -> (j < nrow (nm_Sigma self))%nat ->
           cov (iid_n d) (iid_weight d) (iid_point d) i j
           = if (zero_column (nm_Sigma self) i || zero_column (nm_Sigma self) j)%bool then 0
             else mget (nm_Sigma self) i j).
  Proof.
    intros [S Mu] orders C Hlen Hok Hexact Ho Hsq HMu HC Hchol. cbn [nm_Sigma nm_Mu] in *.
    destruct (herms_succeed orders Hok) as [hs Hhs].
    assert (Hex := herms_exact orders hs Hhs Hexact).
    destruct (herms_ok _ _ Hhs) as [Hfst _].
    destruct Hchol as (Cr & Cc & _ & CC).
    set (d := nrow S) in *.
    unfold normal_discretize, gauss_hermite_nodes. cbn [nm_Sigma nm_Mu]. rewrite Hhs. cbn [bind].
    assert (Hhl : length hs = length orders) by (rewrite <- Hfst, map_length; reflexivity).
    destruct hs as [|h1 [|h2 hs']]; [simpl in Hhl; lia|simpl in Hhl; lia|].
    set (hs := h1 :: h2 :: hs') in *.
    assert (Hpos : Forall (fun a => 0 < length a)%nat (map gh_points hs)).
    { rewrite Forall_map. eapply Forall_impl; [|exact Hex]. intros h Hh. unfold gh_points.
      rewrite map_length, seq_length. apply exact_pos, Hh. }
    destruct (cartesian_correct (map gh_points hs) ltac:(discriminate) Hpos) as (x & Ex & Xr & Xc & Xen).
    rewrite Ex. cbn [bind].
    rewrite HC. cbn [bind]. rewrite Cc, Cr, HMu, Ho. rewrite !Nat.eqb_refl. cbn [negb bind].
    assert (HW : Forall (fun h => 0 < vlen (gh_weights h))%nat (h1 :: h2 :: hs')).
    { eapply Forall_impl; [|exact Hex]. intros h Hh. apply exact_pos, Hh. }
    destruct (kron_weights rule gh_weights h1 (h2 :: hs') HW) as [K1 K2]. change (h1 :: h2 :: hs') with hs in K1, K2.
    assert (Hdims : map (fun h => vlen (gh_weights h)) hs = orders) by exact Hfst.
    assert (HXr : nrow x = prodn orders).
    { rewrite Xr, dims_axes, Hdims. reflexivity. }
    unfold finite_distribution. cbn [nrow ncol].
    rewrite K1, Hdims, HXr, Nat.eqb_refl. cbn [bind].
    eexists. split; [reflexivity|]. split; [reflexivity|]. split; [reflexivity|].
    set (w := fold_left _ _ _) in *.
    assert (EW : forall r, vget w r = prodl (map (fun h => vget (gh_weights h)) hs) (digits orders r)).
    { intros r. rewrite K2, Hdims. reflexivity. }
    assert (S1 : rsum (prodn orders) (vget w) = 1).
    { rewrite <- Hdims at 1. rewrite <- (W_sum hs Hex). apply rsum_ext. intros r Hr. rewrite EW, Hdims. reflexivity. }
    assert (Hhd : length hs = d) by (rewrite Hhl, Ho; reflexivity).
    assert (S2 : forall j, (j < d)%nat -> rsum (prodn orders) (fun r => vget w r * mget x r j) = 0).
    { intros j Hj. rewrite <- Hdims at 1. rewrite <- (W_mean hs Hex (mget x) Xen j) by (rewrite Hhd; exact Hj).
      apply rsum_ext. intros r Hr. rewrite EW, Hdims. reflexivity. }
    assert (S3 : forall j l, (j < d)%nat -> (l < d)%nat ->
        rsum (prodn orders) (fun r => vget w r * (mget x r j * mget x r l)) = if Nat.eqb j l then 1 else 0).
    { intros j l Hj Hl. rewrite <- Hdims at 1.
      rewrite <- (W_cov hs Hex (mget x) Xen j l) by (rewrite Hhd; assumption).
      apply rsum_ext. intros r Hr. rewrite EW, Hdims. reflexivity. }
    split; [exact S1|].
    assert (HM : forall i, (i < d)%nat ->
      mean (prodn orders) (vget w)
        (iid_point (Finite (Mat (prodn orders) d (fun i j => (if zero_column S j then 0
             else rsum d (fun j0 => mget C j j0 * mget x i j0) + vget Mu j) + vget Mu j)) w)) i
      = if zero_column S i then vget Mu i else 2 * vget Mu i).
    { intros i Hi. unfold mean, expect.
      rewrite (rsum_ext _ _ (fun r => vget w r * ((if zero_column S i then 0
             else rsum d (fun j0 => mget C i j0 * mget x r j0) + vget Mu i) + vget Mu i)))
        by (intros r Hr; rewrite coord_point by exact Hi; reflexivity).
      destruct (zero_column S i).
      - rewrite (rsum_ext _ _ (fun r => vget w r * vget Mu i)) by (intros; ring).
        rewrite rsum_scal_r, S1. ring.
      - rewrite (rsum_ext _ _ (fun r => vget w r * (rsum d (fun j0 => mget C i j0 * mget x r j0) + 2 * vget Mu i)))
          by (intros; ring).
        apply affine_mean; assumption. }
    change (iid_n (Finite ?p ?q)) with (nrow p). cbn [nrow].
    change (iid_weight (Finite ?p ?q)) with (vget q).
    split; [exact HM|].
    intros i j Hi Hj. unfold cov. rewrite !HM by assumption. unfold expect.
    rewrite (rsum_ext _ _ (fun r => vget w r *
       ((if zero_column S i then 0 else rsum d (fun j0 => mget C i j0 * mget x r j0)) *
        (if zero_column S j then 0 else rsum d (fun j0 => mget C j j0 * mget x r j0))))).
    2:{ intros r Hr. rewrite !coord_point by assumption. cbn [mget].
        destruct (zero_column S i), (zero_column S j); ring. }
    destruct (zero_column S i) eqn:Zi; cbn [orb].
    { apply rsum_0. intros; ring. }
    destruct (zero_column S j) eqn:Zj.
    { apply rsum_0. intros; ring. }
    rewrite affine_cov by exact S3. rewrite CC by assumption. unfold patch_in_place. cbn [mget].
    rewrite Zi. rewrite !Bool.andb_false_r. reflexivity.
  Qed.

  (** One dimension. *)
  Lemma normal_uni : forall (self : normal) o x w,
      nrow (nm_Sigma self) = 1%nat -> ncol (nm_Sigma self) = 1%nat ->
      0 <= mget (nm_Sigma self) 0 0 ->
      herm o = Ok (x, w) -> exact_rule o x w ->
      exists d, normal_discretize herm chol self [o] = Ok (d, self) /\
        iid_n d = o /\ rsum (iid_n d) (iid_weight d) = 1 /\
        mean (iid_n d) (iid_weight d) (iid_point d) 0 = vget (nm_Mu self) 0 /\
        cov (iid_n d) (iid_weight d) (iid_point d) 0 0 = mget (nm_Sigma self) 0 0.
  Proof.
    intros [S Mu] o x w Hr Hc Hs Hh He. cbn [nm_Sigma nm_Mu] in *.
    unfold normal_discretize, gauss_hermite_nodes, herms. cbn [nm_Sigma nm_Mu]. rewrite Hh. cbn [bind].
    rewrite Hr, Hc. cbn [Nat.eqb andb]. destruct (Rlt_dec (mget S 0%nat 0%nat) 0); [lra|]. cbn [bind].
    unfold finite_distribution. cbn [nrow ncol gh_weights vlen fst snd]. rewrite Nat.eqb_refl. cbn [bind].
    eexists. split; [reflexivity|]. split; [reflexivity|].
    set (h := (o, (x, w))).
    destruct (gh_sums h He) as (S1 & S2 & S3). change (fst h) with o in *.
    set (sg := sqrt (mget S 0%nat 0%nat)).
    set (W := vget (gh_weights h)) in *.
    assert (HM : mean o W (iid_point (Finite (Mat o 1 (fun i j => nth i (gh_points h) 0 * sg + vget Mu j)) (gh_weights h))) 0 = vget Mu 0%nat).
    { unfold mean, expect.
      rewrite (rsum_ext _ _ (fun r => sg * (W r * nth r (gh_points h) 0) + W r * vget Mu 0%nat))
        by (intros r Hr'; rewrite coord_point by (simpl; lia); cbn [mget]; ring).
      rewrite rsum_plus, rsum_scal, rsum_scal_r, S1, S2. ring. }
    split; [exact S1|]. split; [exact HM|].
    change (cov o W (iid_point (Finite (Mat o 1 (fun i j => nth i (gh_points h) 0 * sg + vget Mu j)) (gh_weights h))) 0 0 = mget S 0%nat 0%nat).
    unfold cov. rewrite HM. unfold expect.
    rewrite (rsum_ext _ _ (fun r => sg * sg * (W r * (nth r (gh_points h) 0 * nth r (gh_points h) 0)))).
    - rewrite rsum_scal, S3. unfold sg. rewrite sqrt_sqrt by exact Hs. ring.
    - intros r Hr'. rewrite coord_point by (simpl; lia). cbn [mget]. ring.
  Qed.

  Lemma unormal_moments : forall sigma mu o x w,
      0 <= sigma -> herm o = Ok (x, w) -> exact_rule o x w ->
      exists d, unormal_gh herm chol sigma mu o = Ok d /\
        iid_n d = o /\ rsum (iid_n d) (iid_weight d) = 1 /\
        mean (iid_n d) (iid_weight d) (iid_point d) 0 = mu /\
        cov (iid_n d) (iid_weight d) (iid_point d) 0 0 = sigma ^ 2.
  Proof.
    intros sigma mu o x w Hs Hh He.
    destruct (normal_uni {| nm_Sigma := Mat 1 1 (fun _ _ => sigma ^ 2); nm_Mu := Vec 1 (fun _ => mu) |} o x w
      eq_refl eq_refl ltac:(simpl; nra) Hh He) as (d & E & H1 & H2 & H3 & H4).
    exists d. split; [|repeat split; assumption].
    unfold normal_discretize in E. cbn [nm_Sigma nm_Mu vget] in E. unfold unormal_gh, unormal_gh_orders.
    destruct (gauss_hermite_nodes herm chol [o] (Mat 1 1 (fun _ _ => sigma ^ 2)) (Vec 1 (fun _ => mu))) as [[[x0 w0] s0]|];
      [|discriminate]. cbn [bind] in *.
    destruct (finite_distribution _ w0) as [d0|]; [|discriminate]. cbn [bind] in E. congruence.
  Qed.

  (** ** Calls and side effects *)
  Lemma patch_no_zero : forall S, (forall i, (i < ncol S)%nat -> zero_column S i = false) -> patch_in_place S = S.
  Proof.
    intros [r c g] H. unfold patch_in_place. cbn [nrow ncol mget] in *. f_equal.
    extensionality i. extensionality j. destruct (Nat.eqb i j); cbn [andb]; [|reflexivity].
    destruct (Nat.ltb_spec i c); cbn [andb]; [|reflexivity]. rewrite H by assumption. reflexivity.
  Qed.

  Lemma normal_pure : forall (self self' : normal) orders d,
      (forall i, (i < ncol (nm_Sigma self))%nat -> zero_column (nm_Sigma self) i = false) ->
      normal_discretize herm chol self orders = Ok (d, self') -> self' = self.
  Proof.
    intros [S Mu] self' orders d Hz H. unfold normal_discretize in H. cbn [nm_Sigma nm_Mu] in *.
    destruct (gauss_hermite_nodes herm chol orders S Mu) as [[[x w] s]|] eqn:E; [|discriminate]. cbn [bind] in H.
    assert (Hs : s = S).
    { unfold gauss_hermite_nodes in E. destruct (herms herm orders) as [hs|]; [|discriminate]. cbn [bind] in E.
      destruct hs as [|h [|h' hs]]; [discriminate| |].
      - destruct (_ && _)%bool; [|discriminate]. destruct (Rlt_dec _ _); [discriminate|]. congruence.
      - destruct (cartesian _ _) as [x0|]; [|discriminate]. cbn [bind] in E.
        destruct (chol _) as [C|]; [|discriminate]. cbn [bind] in E.
        destruct (negb _); [discriminate|]. destruct (negb _); [discriminate|].
        rewrite patch_no_zero in E by exact Hz. congruence. }
    destruct (finite_distribution _ w) as [d0|]; [|discriminate]. cbn [bind] in H. injection H as _ <-.
    rewrite Hs. reflexivity.
  Qed.

  Lemma normal_uni_pure : forall (self self' : normal) o d,
      normal_discretize herm chol self [o] = Ok (d, self') -> self' = self.
  Proof.
    intros [S Mu] self' o d H. unfold normal_discretize in H. cbn [nm_Sigma nm_Mu] in *.
    destruct (gauss_hermite_nodes herm chol [o] S Mu) as [[[x w] s]|] eqn:E; [|discriminate]. cbn [bind] in H.
    assert (Hs : s = S).
    { unfold gauss_hermite_nodes, herms in E. destruct (herm o); [|discriminate]. cbn [bind] in E.
      destruct (_ && _)%bool; [|discriminate]. destruct (Rlt_dec _ _); [discriminate|]. congruence. }
    destruct (finite_distribution _ w) as [d0|]; [|discriminate]. cbn [bind] in H. injection H as _ <-.
    rewrite Hs. reflexivity.
  Qed.
End Normal.

(** The degenerate example: variances 1 and 0. *)
Definition degenerate : normal :=
  {| nm_Sigma := Mat 2 2 (fun i j => if (Nat.eqb i 0 && Nat.eqb j 0)%bool then 1 else 0);
     nm_Mu := Vec 2 (fun _ => 0) |}.

Lemma degenerate_zero : zero_column (nm_Sigma degenerate) 0 = false /\ zero_column (nm_Sigma degenerate) 1 = true.
Proof.
  unfold zero_column, degenerate; simpl. split; match goal with |- context [Req_EM_T ?a ?b] => destruct (Req_EM_T a b) end; try reflexivity; lra.
Qed.

Lemma degenerate_twice : forall herm chol C,
    (exists h, herm 2%nat = Ok h) -> (forall h, herm 2%nat = Ok h -> exact_rule 2 (fst h) (snd h)) ->
    (forall A, (forall i j, (i < 2)%nat -> (j < 2)%nat -> mget A i j = if Nat.eqb i j then 1 else 0) -> chol A = Ok C) ->
    nrow C = 2%nat -> ncol C = 2%nat ->
    (forall i j, (i < 2)%nat -> (j < 2)%nat -> mget C i j = if Nat.eqb i j then 1 else 0) ->
    exists d1 s1 d2 s2,
      normal_discretize herm chol degenerate [2%nat; 2%nat] = Ok (d1, s1) /\
      normal_discretize herm chol s1 [2%nat; 2%nat] = Ok (d2, s2) /\
      mget (nm_Sigma degenerate) 1 1 = 0 /\ mget (nm_Sigma s1) 1 1 = 1 /\
      cov (iid_n d1) (iid_weight d1) (iid_point d1) 1 1 = 0 /\
      cov (iid_n d2) (iid_weight d2) (iid_point d2) 1 1 = 1.
Proof.
  intros herm chol C Hok Hex Hchol Cr Cc HC.
  destruct degenerate_zero as [Z0 Z1].
  set (S1 := patch_in_place (nm_Sigma degenerate)).
  assert (HS1 : forall i j, (i < 2)%nat -> (j < 2)%nat -> mget S1 i j = if Nat.eqb i j then 1 else 0).
  { intros i j Hi Hj. unfold S1, patch_in_place. cbn [mget ncol degenerate nm_Sigma].
    destruct i as [|[|i]], j as [|[|j]]; try lia; cbn [Nat.eqb andb Nat.ltb Nat.leb]; try reflexivity.
    - fold degenerate. change (zero_column _ 0) with (zero_column (nm_Sigma degenerate) 0). rewrite Z0. reflexivity.
    - change (zero_column _ 1) with (zero_column (nm_Sigma degenerate) 1). rewrite Z1. reflexivity. }
  assert (Hch1 : is_cholesky_lower 2 S1 C).
  { split; [exact Cr|]. split; [exact Cc|]. split.
    - intros i j Hij Hj. rewrite HC by lia. destruct (Nat.eqb_spec i j); [lia|reflexivity].
    - intros i j Hi Hj. rewrite HS1 by assumption. cbn [rsum]. rewrite !HC by lia.
      destruct i as [|[|i]], j as [|[|j]]; try lia; simpl; ring. }
  destruct (normal_multi herm chol degenerate [2%nat; 2%nat] C) as (d1 & E1 & N1 & D1 & _ & _ & V1);
    try (simpl; lia); try reflexivity; try (repeat (apply Forall_cons || apply Forall_nil); assumption).
  { apply Hchol, HS1. }
  set (s1 := {| nm_Sigma := patch_in_place (nm_Sigma degenerate); nm_Mu := nm_Mu degenerate |}) in *.
  assert (Zs : forall i, (i < 2)%nat -> zero_column (nm_Sigma s1) i = false).
  { intros i Hi. unfold zero_column. change (nrow (nm_Sigma s1)) with 2%nat. cbn [rsum].
    change (nm_Sigma s1) with S1. rewrite !HS1 by lia.
    destruct i as [|[|i]]; try lia; simpl; match goal with |- context [Req_EM_T ?a ?b] => destruct (Req_EM_T a b) end; try reflexivity; lra. }
  assert (Ps : patch_in_place (nm_Sigma s1) = nm_Sigma s1) by (apply patch_no_zero; exact Zs).
  destruct (normal_multi herm chol s1 [2%nat; 2%nat] C) as (d2 & E2 & N2 & D2 & _ & _ & V2);
    try (simpl; lia); try reflexivity; try (repeat (apply Forall_cons || apply Forall_nil); assumption).
  { rewrite Ps. apply Hchol, HS1. }
  { rewrite Ps. exact Hch1. }
  exists d1, s1, d2, {| nm_Sigma := patch_in_place (nm_Sigma s1); nm_Mu := nm_Mu s1 |}.
  split; [exact E1|]. split; [exact E2|]. split; [reflexivity|]. split.
  - apply (HS1 1%nat 1%nat); lia.
  - split.
    + rewrite V1 by (simpl; lia). rewrite Z1. reflexivity.
    + rewrite V2 by (simpl; lia). rewrite !Zs by lia. apply (HS1 1%nat 1%nat); lia.
Qed.

(** The exact rule of order two. *)
Definition rule2_x (i : nat) : R := if Nat.eqb i 0 then - (1 / sqrt 2) else 1 / sqrt 2.
Definition rule2_w (i : nat) : R := sqrt PI / 2.
Lemma rule2_exact : exact_rule 2 rule2_x rule2_w.
Proof.
  assert (H2 : sqrt 2 * sqrt 2 = 2) by (apply sqrt_sqrt; lra).
  assert (0 < sqrt 2) by (apply sqrt_lt_R0; lra).
  unfold exact_rule, rule2_x, rule2_w; cbn [rsum Nat.eqb]. split; [lra|]. split; [ring|].
  replace ((1 / sqrt 2) ^ 2) with (/ (sqrt 2 * sqrt 2)) by (field; lra).
  replace ((- (1 / sqrt 2)) ^ 2) with (/ (sqrt 2 * sqrt 2)) by (field; lra).
  rewrite H2. field.
Qed.

Lemma normal_mean_doubled :
  forall herm chol (self : normal) orders C,
    (2 <= length orders)%nat ->
    Forall (fun o => exists h, herm o = Ok h) orders ->
    Forall (fun o => forall h, herm o = Ok h -> exact_rule o (fst h) (snd h)) orders ->
    length orders = nrow (nm_Sigma self) -> ncol (nm_Sigma self) = nrow (nm_Sigma self) ->
    vlen (nm_Mu self) = nrow (nm_Sigma self) ->
    chol (patch_in_place (nm_Sigma self)) = Ok C ->
    is_cholesky_lower (nrow (nm_Sigma self)) (patch_in_place (nm_Sigma self)) C ->
    exists d self', normal_discretize herm chol self orders = Ok (d, self') /\
      (forall i, (i < nrow (nm_Sigma self))%nat -> zero_column (nm_Sigma self) i = false ->
         mean (iid_n d) (iid_weight d) (iid_point d) i = 2 * vget (nm_Mu self) i /\
         (mean (iid_n d) (iid_weight d) (iid_point d) i = vget (nm_Mu self) i <-> vget (nm_Mu self) i = 0)).
Proof.
  intros herm chol self orders C H1 H2 H3 H4 H5 H6 H7 H8.
  destruct (normal_multi herm chol self orders C H1 H2 H3 H4 H5 H6 H7 H8) as (d & E & _ & _ & _ & M & _).
  exists d. eexists. split; [exact E|]. intros i Hi Hz. rewrite M by exact Hi. rewrite Hz.
  split; [reflexivity|]. split; lra.
Qed.

Lemma normal_covariance :
  forall herm chol (self : normal) orders C,
    (2 <= length orders)%nat ->
    Forall (fun o => exists h, herm o = Ok h) orders ->
    Forall (fun o => forall h, herm o = Ok h -> exact_rule o (fst h) (snd h)) orders ->
    length orders = nrow (nm_Sigma self) -> ncol (nm_Sigma self) = nrow (nm_Sigma self) ->
    vlen (nm_Mu self) = nrow (nm_Sigma self) ->
    chol (patch_in_place (nm_Sigma self)) = Ok C ->
    is_cholesky_lower (nrow (nm_Sigma self)) (patch_in_place (nm_Sigma self)) C ->
    exists d self', normal_discretize herm chol self orders = Ok (d, self') /\
      iid_n d = prodn orders /\ rsum (iid_n d) (iid_weight d) = 1 /\
      (forall i j, (i < nrow (nm_Sigma self))%nat -> (j < nrow (nm_Sigma self))%nat ->
         cov (iid_n d) (iid_weight d) (iid_point d) i j
         = if (zero_column (nm_Sigma self) i || zero_column (nm_Sigma self) j)%bool then 0
           else mget (nm_Sigma self) i j).
Proof.
  intros herm chol self orders C H1 H2 H3 H4 H5 H6 H7 H8.
  destruct (normal_multi herm chol self orders C H1 H2 H3 H4 H5 H6 H7 H8) as (d & E & N & _ & S & _ & V).
  exists d. eexists. split; [exact E|]. split; [exact N|]. split; [exact S|exact V].
Qed.

Lemma normal_example :
  exists herm chol self d self',
    nm_Sigma self = Mat 2 2 (fun i j => if Nat.eqb i j then (if Nat.eqb i 0 then 1 else 5) else 2) /\
    normal_discretize herm chol self [2%nat; 2%nat] = Ok (d, self') /\
    vget (nm_Mu self) 1 = 3 /\
    mean (iid_n d) (iid_weight d) (iid_point d) 1 = 6 /\
    cov (iid_n d) (iid_weight d) (iid_point d) 0 1 = 2.
Proof.
  set (S := Mat 2 2 (fun i j => if Nat.eqb i j then (if Nat.eqb i 0 then 1 else 5) else 2)).
  set (L := Mat 2 2 (fun i j => if Nat.eqb i j then 1 else if Nat.ltb i j then 0 else 2)).
  set (self := {| nm_Sigma := S; nm_Mu := Vec 2 (fun _ => 3) |}).
  assert (Z : forall i, (i < 2)%nat -> zero_column S i = false).
  { intros i Hi. unfold zero_column, S. cbn [nrow rsum mget].
    destruct i as [|[|i]]; try lia; cbn [Nat.eqb]; match goal with |- context [Req_EM_T ?a ?b] => destruct (Req_EM_T a b) end; try reflexivity; lra. }
  assert (PS : patch_in_place S = S) by (apply patch_no_zero; exact Z).
  destruct (normal_multi (fun _ => Ok (rule2_x, rule2_w)) (fun _ => Ok L) self [2%nat; 2%nat] L)
    as (d & E & _ & _ & _ & M & V); try reflexivity.
  - repeat (apply Forall_cons || apply Forall_nil); eexists; reflexivity.
  - repeat (apply Forall_cons || apply Forall_nil); intros h Hh; injection Hh as <-; exact rule2_exact.
  - change (nm_Sigma self) with S. rewrite PS. split; [reflexivity|]. split; [reflexivity|]. split.
    + intros i j Hij Hj. unfold L. cbn [mget]. destruct (Nat.eqb_spec i j); [lia|].
      destruct (Nat.ltb_spec i j); [reflexivity|lia].
    + intros i j Hi Hj. unfold L, S. cbn [mget nrow rsum] in *.
      destruct i as [|[|i]], j as [|[|j]]; try (simpl in *; lia); simpl; ring.
  - exists (fun _ => Ok (rule2_x, rule2_w)), (fun _ => Ok L), self, d. eexists.
    split; [reflexivity|]. split; [exact E|]. split; [reflexivity|].
    rewrite M, V by (simpl; lia). change (nm_Sigma self) with S. rewrite !Z by lia. split; [simpl; lra|reflexivity].
Qed.

Lemma normal_pure_twice :
  forall herm chol (self self' : normal) orders d,
    (forall i, (i < ncol (nm_Sigma self))%nat ->
       rsum (nrow (nm_Sigma self)) (fun k => mget (nm_Sigma self) k i) <> 0) ->
    normal_discretize herm chol self orders = Ok (d, self') ->
    self' = self /\ normal_discretize herm chol self' orders = Ok (d, self').
Proof.
  intros herm chol self self' orders d Hz H.
  assert (E : self' = self).
  { apply (normal_pure herm chol self self' orders d); [|exact H]. intros i Hi. unfold zero_column.
    destruct (Req_EM_T _ _) as [e|]; [|reflexivity]. exfalso. exact (Hz i Hi e). }
  rewrite E in *. split; [reflexivity|exact H].
Qed.

(** The rule of order one. *)
Lemma herm_newton_1 : forall f z,
    herm_newton (S (S (S f))) 1 z = Ok (0, sqrt 2 * (1 / Rpower PI (1 / 4))).
Proof.
  intros f z. assert (0 < sqrt 2) by (apply sqrt_lt_R0; lra).
  assert (0 < Rpower PI (1 / 4)) by (unfold Rpower; apply exp_pos).
  assert (Hp : 0 < sqrt 2 * (1 / Rpower PI (1 / 4))).
  { apply Rmult_lt_0_compat; [assumption|]. apply Rdiv_lt_0_compat; lra. }
  assert (HR : forall y, herm_rec 1 y = (y * sqrt 2 * (1 / Rpower PI (1 / 4)), 1 / Rpower PI (1 / 4))).
  { intros y. unfold herm_rec. cbn [for_range INR]. f_equal.
    replace (2 / (0 + 1)) with 2 by field. ring. }
  assert (E2 : 2 * INR 1 = 2) by (simpl; ring).
  assert (HZ : forall y, y - y * sqrt 2 * (1 / Rpower PI (1 / 4)) / (sqrt 2 * (1 / Rpower PI (1 / 4))) = 0).
  { intros y. field. lra. }
  cbn [herm_newton]. rewrite HR, E2. destruct (Req_EM_T _ 0); [lra|]. rewrite HZ.
  destruct (Rlt_dec _ _); [reflexivity|].
  rewrite HR. destruct (Req_EM_T _ 0); [lra|]. rewrite HZ.
  destruct (Rlt_dec _ _) as [|N]; [reflexivity|].
  exfalso. apply N. rewrite Rminus_0_r, Rabs_R0. apply Rdiv_lt_0_compat; [lra|]. apply pow_lt; lra.
Qed.

Lemma hermgauss_1 : exists x w, hermgauss 1 = Ok (x, w) /\ x 0%nat = 0 /\ w 0%nat = sqrt PI.
Proof.
  unfold hermgauss. change ((1 + 1) / 2)%nat with 1%nat. cbn [for_range_res bind].
  match goal with |- context [herm_newton ?f 1 ?z] => change f with (S (S (S (f - 3)))) end.
  rewrite herm_newton_1. cbn [bind]. eexists. eexists. split; [reflexivity|].
  unfold upd. cbn [Nat.sub Nat.eqb]. split; [ring|].
  assert (Hq : 0 < Rpower PI (1 / 4)) by (unfold Rpower; apply exp_pos).
  assert (Hs : Rpower PI (1 / 4) * Rpower PI (1 / 4) = sqrt PI).
  { rewrite <- Rpower_plus, <- Rpower_sqrt by apply PI_RGT_0. f_equal. field. }
  replace ((sqrt 2 * (1 / Rpower PI (1 / 4))) ^ 2)
    with ((sqrt 2 * sqrt 2) / (Rpower PI (1 / 4) * Rpower PI (1 / 4))) by (field; lra).
  rewrite sqrt_sqrt, Hs by lra. field. pose proof sqrt_PI_pos. lra.
Qed.
