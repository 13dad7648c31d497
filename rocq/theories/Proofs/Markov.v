(** Lemmas about tauchen, tensor_markov. *)
From Coq Require Import Reals List Arith Lia Lra Bool.
From Verif.Base Require Import Prelude Sums Arrays.
From Verif.Model Require Import Discretization.
From Verif.Spec Require Import Markov.
From Verif.Proofs Require Import DivMod.
Import ListNotations.
Open Scope R_scope.

(** *** tauchen *)

Lemma tauchen_ok_inv : forall cdf N mu rho sigma m Z P,
    tauchen cdf N mu rho sigma m = Ok (Z, P) ->
    (2 <= N)%nat /\ 0 < 1 - rho ^ 2 /\ sigma <> 0
    /\ Z = Vec N (tauchen_node N mu rho sigma m)
    /\ P = Mat N N (tauchen_prob cdf N mu rho sigma m).
Proof.
  intros cdf N mu rho sigma m Z P. unfold tauchen. destruct N as [|N]; [discriminate|].
  destruct (Req_EM_T (1 - rho ^ 2) 0); [discriminate|].
  destruct (Rlt_dec (1 - rho ^ 2) 0); [discriminate|].
  destruct (Nat.eqb_spec (S N) 1); [discriminate|].
  destruct (Req_EM_T sigma 0); [discriminate|].
  intro H; injection H as <- <-. repeat split; try assumption; try lia. lra.
Qed.

Lemma tauchen_succeeds : forall cdf N mu rho sigma m,
    (2 <= N)%nat -> -1 < rho < 1 -> sigma <> 0 ->
    exists Z P, tauchen cdf N mu rho sigma m = Ok (Z, P).
Proof.
  intros cdf N mu rho sigma m HN Hr Hs. unfold tauchen. destruct N as [|N]; [lia|].
  assert (0 < 1 - rho ^ 2) by nra.
  destruct (Req_EM_T (1 - rho ^ 2) 0); [lra|].
  destruct (Rlt_dec (1 - rho ^ 2) 0); [lra|].
  destruct (Nat.eqb_spec (S N) 1); [lia|].
  destruct (Req_EM_T sigma 0); [contradiction|]. eauto.
Qed.

Lemma tauchen_node_closed : forall N mu rho sigma m i,
    rho <> 1 ->
    tauchen_node N mu rho sigma m i
    = mu - tauchen_zmax rho sigma m + tauchen_zstep N rho sigma m * INR i.
Proof.
  intros N mu rho sigma m i Hr. unfold tauchen_node.
  destruct (Nat.eqb_spec i 0) as [->|H]; simpl INR; field; lra.
Qed.

Lemma tauchen_cells_lemma : forall cdf N mu rho sigma m j k,
    (2 <= N)%nat -> rho <> 1 -> (k < N)%nat ->
    tauchen_prob cdf N mu rho sigma m j k
    = cell_prob N (tauchen_node N mu rho sigma m)
        (fun x => cdf ((x - ((1 - rho) * mu + rho * tauchen_node N mu rho sigma m j)) / sigma)) k.
Proof.
  intros cdf N mu rho sigma m j k HN Hr Hk. unfold tauchen_prob, cell_prob.
  set (y := tauchen_node N mu rho sigma m).
  assert (Hmid : forall i, (y i + y (S i)) / 2 = y i + tauchen_zstep N rho sigma m / 2).
  { intro i. unfold y. rewrite !tauchen_node_closed by assumption. rewrite S_INR. field. }
  assert (Hmid' : forall i, (1 <= i)%nat -> (y (i - 1)%nat + y i) / 2
                              = y i - tauchen_zstep N rho sigma m / 2).
  { intros i Hi. replace (y i) with (y (S (i - 1))) at 1 by (f_equal; lia).
    rewrite Hmid. unfold y. rewrite !tauchen_node_closed by assumption.
    rewrite minus_INR by assumption. simpl INR. field. }
  destruct (Nat.eqb_spec k 0) as [->|Hk0].
  - destruct (Nat.eqb_spec 0 (N - 1)); [lia|]. rewrite Hmid.
    match goal with |- cdf ?a = cdf ?b - 0 => replace b with a; [ring|] end.
    f_equal. ring.
  - destruct (Nat.eqb_spec k (N - 1)) as [->|Hk1].
    + rewrite Hmid' by lia. f_equal. f_equal. f_equal. ring.
    + rewrite Hmid, Hmid' by lia. f_equal; f_equal; f_equal; ring.
Qed.

Lemma cell_prob_sum : forall n y F,
    (1 <= n)%nat -> rsum n (cell_prob n y F) = 1.
Proof.
  intros n y F Hn.
  set (g := fun k => if Nat.eqb k 0 then 0 else if Nat.eqb k n then 1
                     else F ((y (k - 1)%nat + y k) / 2)).
  rewrite (rsum_ext n _ (fun k => g (S k) - g k)).
  - rewrite rsum_telescope. unfold g.
    destruct (Nat.eqb_spec n 0); [lia|]. rewrite !Nat.eqb_refl. lra.
  - intros k Hk. unfold cell_prob, g. simpl Nat.eqb at 2.
    destruct (Nat.eqb_spec k (n - 1)) as [->|H1].
    + replace (S (n - 1)) with n by lia. rewrite Nat.eqb_refl.
      destruct (Nat.eqb_spec n 0); [lia|].
      destruct (Nat.eqb_spec (n - 1) n); [lia|].
      destruct (Nat.eqb_spec (n - 1) 0); reflexivity.
    + destruct (Nat.eqb_spec (S k) n); [lia|].
      destruct (Nat.eqb_spec (S k) 0); [lia|].
      destruct (Nat.eqb_spec k n); [lia|].
      simpl. rewrite Nat.sub_0_r.
      destruct (Nat.eqb_spec k 0); reflexivity.
Qed.

Lemma cell_prob_nonneg : forall n y F k,
    (forall a b, a <= b -> F a <= F b) -> (forall a, 0 <= F a <= 1) ->
    (forall i, (S i < n)%nat -> y i <= y (S i)) ->
    (k < n)%nat -> 0 <= cell_prob n y F k.
Proof.
  intros n y F k Hmono Hb Hy Hk. unfold cell_prob.
  destruct (Nat.eqb_spec k (n - 1)); destruct (Nat.eqb_spec k 0); subst.
  - lra.
  - pose proof (Hb ((y (n - 1 - 1)%nat + y (n - 1)%nat) / 2)). lra.
  - pose proof (Hb ((y 0%nat + y 1%nat) / 2)). lra.
  - assert (y (k - 1)%nat <= y k).
    { replace k with (S (k - 1)) at 2 by lia. apply Hy; lia. }
    assert (y k <= y (S k)) by (apply Hy; lia).
    assert (F ((y (k - 1)%nat + y k) / 2) <= F ((y k + y (S k)) / 2)) by (apply Hmono; lra).
    lra.
Qed.

Lemma tauchen_zstep_nonneg : forall N rho sigma m,
    (2 <= N)%nat -> 0 <= m -> 0 <= tauchen_zstep N rho sigma m.
Proof.
  intros N rho sigma m HN Hm. unfold tauchen_zstep, tauchen_zmax.
  pose proof (INR_pred_pos N HN).
  apply Rmult_le_pos; [|left; now apply Rinv_0_lt_compat].
  pose proof (sqrt_pos (sigma ^ 2 / (1 - rho ^ 2))).
  assert (0 <= m * sqrt (sigma ^ 2 / (1 - rho ^ 2))) by (apply Rmult_le_pos; assumption). lra.
Qed.

(** *** tensor_markov *)

Lemma map_seq_shift : forall A (g : nat -> A) k n s,
    map (fun j => g (j - k)%nat) (seq (k + s) n) = map g (seq s n).
Proof.
  intros A g k n; induction n as [|n IH]; intro s; [reflexivity|].
  simpl. f_equal; [f_equal; lia|]. rewrite <- (IH (S s)). f_equal. f_equal. lia.
Qed.

Lemma row_app : forall n r c1 c2 f g i,
    row (Mat n (c1 + c2) (fun i j => if Nat.ltb j c1 then f i j else g i (j - c1)%nat)) i
    = row (Mat r c1 f) i ++ row (Mat r c2 g) i.
Proof.
  intros n r c1 c2 f g i. unfold row; simpl.
  rewrite seq_app, map_app. f_equal.
  - apply map_ext_in; intros j Hj. apply in_seq in Hj.
    assert (Nat.ltb j c1 = true) as -> by (apply Nat.ltb_lt; lia). reflexivity.
  - simpl. replace (map (g i) (seq 0 c2)) with (map (fun j => g i (j - c1)%nat) (seq c1 c2)).
    + apply map_ext_in; intros j Hj. apply in_seq in Hj.
      assert (Nat.ltb j c1 = false) as -> by (apply Nat.ltb_ge; lia). reflexivity.
    + rewrite <- (map_seq_shift R (g i) c1 c2 0). rewrite Nat.add_0_r. reflexivity.
Qed.

Lemma tensor_markov2_ok : forall c1 c2,
    wf_chain c1 -> wf_chain c2 ->
    exists n, tensor_markov2 c1 c2 = Ok (n, kron (snd c1) (snd c2))
      /\ nrow n = (nrow (snd c1) * nrow (snd c2))%nat
      /\ forall k, row n k = row (fst c1) (k / nrow (snd c2))
                               ++ row (fst c2) (k mod nrow (snd c2)).
Proof.
  intros [n1 t1] [n2 t2] [H1 H1'] [H2 H2']; simpl in *.
  unfold tensor_markov2.
  rewrite H1, H1', H2, H2', !Nat.eqb_refl. simpl andb. cbv iota.
  unfold column_stack, repeat_rows, tile_rows; simpl.
  rewrite H1, H2, H1', H2'. rewrite Nat.eqb_refl. simpl.
  eexists; split; [reflexivity|]. simpl. split; [reflexivity|].
  intro k.
  rewrite (row_app _ 0 (ncol n1) (ncol n2) (fun i j => mget n1 (i / ncol t2) j)
                   (fun i j => mget n2 (i mod ncol t2) j)).
  reflexivity.
Qed.

Lemma tensor_fold_ok : forall l acc,
    wf_chain acc -> Forall wf_chain l ->
    exists n t, tensor_markov_fold acc l = Ok (n, t)
      /\ nrow t = (nrow (snd acc) * size_prod (sizes l))%nat
      /\ nrow n = nrow t /\ ncol t = nrow t
      /\ (forall k l', (k < nrow t)%nat -> (l' < nrow t)%nat ->
            mget t k l'
            = mget (snd acc) (k / size_prod (sizes l)) (l' / size_prod (sizes l))
              * joint_prob (map snd l) (components (sizes l) (k mod size_prod (sizes l)))
                                       (components (sizes l) (l' mod size_prod (sizes l))))
      /\ (forall k, (k < nrow t)%nat ->
            row n k = row (fst acc) (k / size_prod (sizes l))
                        ++ joint_values (map fst l) (components (sizes l) (k mod size_prod (sizes l)))).
Proof.
  induction l as [|m l IH]; intros acc Hacc Hl; cbn -[Nat.div Nat.modulo].
  - destruct acc as [n t]. destruct Hacc as [H1 H2]; simpl in *.
    exists n, t. split; [reflexivity|]. repeat split; try lia.
    + intros k l' _ _. rewrite !Nat.div_1_r. ring.
    + intros k _. rewrite Nat.div_1_r, app_nil_r. reflexivity.
  - inversion Hl as [|x y Hm Hl']; subst.
    destruct (tensor_markov2_ok acc m Hacc Hm) as (n' & -> & Hn' & Hrow). simpl.
    set (acc' := (n', kron (snd acc) (snd m))).
    assert (Hacc' : wf_chain acc').
    { destruct Hacc as [_ Ha]; destruct Hm as [_ Hm']. unfold acc'; split; simpl; [exact Hn'|].
      rewrite <- Ha, <- Hm'. reflexivity. }
    destruct (IH acc' Hacc' Hl') as (n & t & Ht & Hsz & Hn & Hc & Hp & Hv).
    exists n, t. split; [exact Ht|]. simpl in Hsz, Hp, Hv.
    assert (Hm2 : ncol (snd m) = nrow (snd m)) by (destruct Hm; congruence).
    change (map (fun c : mat * mat => nrow (snd c)) l) with (sizes l).
    rewrite Hsz. rewrite Hsz in Hn, Hc, Hp, Hv.
    repeat split; try (rewrite ?Hn, ?Hc; ring).
    + intros k l' Hk Hk'. rewrite Hp by assumption. rewrite Hm2.
      set (s := nrow (snd m)) in *. set (b := size_prod (sizes l)) in *.
      assert (Hb : b <> 0%nat) by nia. assert (Hs : s <> 0%nat) by nia.
      rewrite !Nat.div_div by assumption. rewrite (Nat.mul_comm b s).
      rewrite <- !(div_mod_prod _ s b) by assumption.
      rewrite !(mod_mod_prod _ s b) by assumption. ring.
    + intros k Hk. rewrite Hv by assumption. rewrite Hrow.
      set (s := nrow (snd m)) in *. set (b := size_prod (sizes l)) in *.
      assert (Hb : b <> 0%nat) by nia. assert (Hs : s <> 0%nat) by nia.
      rewrite !Nat.div_div by assumption. rewrite (Nat.mul_comm b s).
      rewrite <- !(div_mod_prod _ s b) by assumption.
      rewrite !(mod_mod_prod _ s b) by assumption.
      rewrite app_assoc. reflexivity.
Qed.

Lemma tensor_markov_joint_lemma : forall ms,
    (2 <= length ms)%nat -> Forall wf_chain ms ->
    exists n t, tensor_markov ms = Ok (n, t)
      /\ nrow n = size_prod (sizes ms) /\ nrow t = size_prod (sizes ms)
      /\ ncol t = size_prod (sizes ms)
      /\ (forall k l, (k < size_prod (sizes ms))%nat -> (l < size_prod (sizes ms))%nat ->
            mget t k l = joint_prob (map snd ms) (components (sizes ms) k) (components (sizes ms) l))
      /\ (forall k, (k < size_prod (sizes ms))%nat ->
            row n k = joint_values (map fst ms) (components (sizes ms) k)).
Proof.
  intros ms Hlen Hwf. destruct ms as [|m1 [|m2 ms]]; simpl in Hlen; try lia.
  inversion Hwf as [|x y H1 H2]; subst.
  destruct (tensor_fold_ok (m2 :: ms) m1 H1 H2) as (n & t & Ht & Hsz & Hn & Hc & Hp & Hv).
  exists n, t. split; [exact Ht|].
  change (size_prod (sizes (m1 :: m2 :: ms)))
    with (nrow (snd m1) * size_prod (sizes (m2 :: ms)))%nat.
  rewrite <- Hsz. repeat split; try assumption.
Qed.

Lemma kron_stochastic : forall n m P Q,
    stochastic n P -> stochastic m Q -> stochastic (n * m) (kron P Q).
Proof.
  intros n m P Q (Hn & Hn' & Hpos & Hsum) (Hm & Hm' & Hpos' & Hsum').
  unfold stochastic; simpl. rewrite Hn, Hn', Hm, Hm'.
  repeat split.
  - intros i j Hi Hj.
    assert (m <> 0%nat) by nia.
    apply Rmult_le_pos; [apply Hpos|apply Hpos']; try apply div_lt_prod; try assumption;
      apply Nat.mod_upper_bound; assumption.
  - intros i Hi. assert (m <> 0%nat) by nia.
    rewrite (rsum_prod n m (fun a b => mget P (i / m) a * mget Q (i mod m) b)).
    rewrite (rsum_ext n _ (fun a => mget P (i / m) a)).
    + apply Hsum. now apply div_lt_prod.
    + intros a Ha. rewrite rsum_scal, Hsum' by (apply Nat.mod_upper_bound; assumption). ring.
Qed.

Lemma tensor_fold_stochastic : forall l acc n t,
    wf_chain acc -> stochastic (nrow (snd acc)) (snd acc) ->
    Forall (fun c => wf_chain c /\ stochastic (nrow (snd c)) (snd c)) l ->
    tensor_markov_fold acc l = Ok (n, t) -> stochastic (nrow t) t.
Proof.
  induction l as [|m l IH]; intros acc n t Hwf Hst Hl H; simpl in H.
  - injection H as ->. exact Hst.
  - inversion Hl as [|x y [Hm Hms] Hl']; subst.
    destruct (tensor_markov2_ok acc m Hwf Hm) as (n' & E & Hn' & _).
    rewrite E in H. simpl in H.
    refine (IH _ n t _ _ Hl' H); simpl.
    + destruct Hwf as [_ Ha]; destruct Hm as [_ Hm']. split; simpl; [exact Hn'|].
      rewrite <- Ha, <- Hm'. reflexivity.
    + apply kron_stochastic; assumption.
Qed.
