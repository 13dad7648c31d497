From Coq Require Import Reals List Arith Lia Lra.
From Verif.Base Require Import Prelude Sums Arrays.
From Verif.Spec Require Import Product Law Markov.
From Verif.Model Require Import Discretization Grids Distributions.
From Verif.Proofs Require Import GridProofs DivMod.
Import ListNotations.
Open Scope R_scope.

(** ** Mixed-radix digits *)
Fixpoint digits (dims : list nat) (r : nat) : list nat :=
  match dims with
  | [] => []
  | _ :: ds => (r / prodn ds)%nat :: digits ds (r mod prodn ds)%nat
  end.

Lemma digits_valid : forall dims r, (r < prodn dims)%nat -> valid_index dims (digits dims r).
Proof.
  induction dims as [|d ds IH]; intros r Hr; simpl in *; [constructor|].
  assert (Hp : (0 < prodn ds)%nat) by (destruct (prodn ds); lia).
  constructor; [apply Nat.div_lt_upper_bound; lia|]. apply IH. apply Nat.mod_upper_bound; lia.
Qed.

Lemma digits_rank : forall dims r, (r < prodn dims)%nat -> rank dims (digits dims r) = r.
Proof.
  induction dims as [|d ds IH]; intros r Hr; simpl in *; [lia|].
  assert (Hp : (0 < prodn ds)%nat) by (destruct (prodn ds); lia).
  rewrite IH by (apply Nat.mod_upper_bound; lia).
  pose proof (Nat.div_mod r (prodn ds) ltac:(lia)). lia.
Qed.

Lemma rank_digits : forall dims idx, valid_index dims idx -> digits dims (rank dims idx) = idx.
Proof.
  intros dims idx H. apply (rank_inj dims); [apply digits_valid, rank_lt, H|exact H|].
  apply digits_rank, rank_lt, H.
Qed.

Fixpoint prod_sums (dims : list nat) (fs : list (nat -> R)) : R :=
  match dims, fs with
  | d :: ds, f :: fs' => rsum d f * prod_sums ds fs'
  | _, _ => 1
  end.

Lemma rsum_prodl : forall dims fs, length fs = length dims ->
    rsum (prodn dims) (fun r => prodl fs (digits dims r)) = prod_sums dims fs.
Proof.
  induction dims as [|d ds IH]; intros fs Hl; destruct fs as [|f fs]; try discriminate.
  - simpl. lra.
  - cbn [prodn digits prodl prod_sums].
    rewrite (rsum_prod d (prodn ds) (fun i j => f i * prodl fs (digits ds j))).
    rewrite <- (IH fs) by (simpl in Hl; lia). rewrite <- rsum_scal_r.
    apply rsum_ext. intros i Hi. apply rsum_scal.
Qed.

(** Multiplying the k-th factor. *)
Fixpoint mul_at (k : nat) (g : nat -> R) (fs : list (nat -> R)) : list (nat -> R) :=
  match fs with
  | [] => []
  | f :: fs' => match k with O => (fun i => f i * g i) :: fs' | S k' => f :: mul_at k' g fs' end
  end.

Lemma mul_at_length : forall fs k g, length (mul_at k g fs) = length fs.
Proof. induction fs as [|f fs IH]; intros [|k] g; simpl; try reflexivity. rewrite IH. reflexivity. Qed.

Lemma prodl_mul_at : forall fs is k g, (k < length fs)%nat -> length is = length fs ->
    prodl (mul_at k g fs) is = prodl fs is * g (nth k is 0%nat).
Proof.
  induction fs as [|f fs IH]; intros is k g Hk Hl; [simpl in Hk; lia|].
  destruct is as [|i is]; [discriminate|]. simpl in Hl.
  destruct k as [|k]; simpl; [ring|]. rewrite IH by (simpl in Hk; lia). ring.
Qed.

Lemma digits_length : forall dims r, length (digits dims r) = length dims.
Proof. induction dims; intros; simpl; [reflexivity|]. rewrite IHdims. reflexivity. Qed.

Lemma enumerates_digits : forall A (dflt : A) axes rows r k,
    enumerates dflt axes rows -> (r < prodn (map (@length A) axes))%nat -> (k < length axes)%nat ->
    rows r k = nth (nth k (digits (map (@length A) axes) r) 0%nat) (nth k axes []) dflt.
Proof.
  intros A dflt axes rows r k H Hr Hk.
  rewrite <- (H (digits (map (@length A) axes) r)) by (try apply digits_valid; assumption).
  rewrite digits_rank by assumption. reflexivity.
Qed.

(** ** Kronecker products of weights *)
Lemma kron_fold : forall (T : Type) (wt : T -> vec) (l : list T) (acc : vec),
    Forall (fun t => 0 < vlen (wt t))%nat l ->
    let dims := map (fun t => vlen (wt t)) l in
    vlen (fold_left (fun w t => kron_vec w (wt t)) l acc) = (vlen acc * prodn dims)%nat /\
    forall r, vget (fold_left (fun w t => kron_vec w (wt t)) l acc) r
              = vget acc (r / prodn dims) * prodl (map (fun t => vget (wt t)) l) (digits dims (r mod prodn dims)).
Proof.
  intros T wt l. induction l as [|t l IH]; intros acc Hp.
  - split; simpl; [lia|]. intros r. rewrite Nat.div_1_r. ring.
  - inversion Hp as [|? ? Ht Hl]; subst.
    assert (Hd : (0 < prodn (map (fun t => vlen (wt t)) l))%nat).
    { apply prodn_pos. rewrite Forall_map. exact Hl. }
    set (D := prodn (map (fun t => vlen (wt t)) l)) in *.
    destruct (IH (kron_vec acc (wt t)) Hl) as [I1 I2]. fold D in I1, I2.
    split; [cbn [fold_left]; rewrite I1; unfold kron_vec; cbn [vlen map prodn]; fold D; ring|].
    intros r. cbn [fold_left]. rewrite I2. unfold kron_vec. cbn [vlen vget map prodn digits prodl]. fold D.
    rewrite Nat.div_div, (Nat.mul_comm D) by lia.
    rewrite (div_mod_prod r (vlen (wt t)) D) by lia.
    rewrite (mod_mod_prod r (vlen (wt t)) D) by lia. ring.
Qed.

Lemma kron_weights : forall (T : Type) (wt : T -> vec) (t0 : T) (l : list T),
    Forall (fun t => 0 < vlen (wt t))%nat (t0 :: l) ->
    let dims := map (fun t => vlen (wt t)) (t0 :: l) in
    let w := fold_left (fun w t => kron_vec w (wt t)) l (wt t0) in
    vlen w = prodn dims /\
    forall r, vget w r = prodl (map (fun t => vget (wt t)) (t0 :: l)) (digits dims r).
Proof.
  intros T wt t0 l Hp dims w. inversion Hp as [|? ? Ht Hl]; subst.
  destruct (kron_fold T wt l (wt t0) Hl) as [H1 H2]. split; [exact H1|]. intros r. apply H2.
Qed.

(** ** integrate *)
Lemma fold_left_sum : forall (l : list (R * list R)) f a,
    fold_left (fun acc wx => acc + fst wx * f (snd wx)) l a = a + lsum (map (fun wx => fst wx * f (snd wx)) l).
Proof.
  induction l as [|x l IH]; intros f a; simpl; [lra|]. rewrite IH. lra.
Qed.

Lemma integrate_sum : forall d f,
    iid_integrate d f = expect (iid_n d) (iid_weight d) (iid_point d) f.
Proof.
  intros d f. unfold iid_integrate, expect, iid_items. rewrite fold_left_sum, map_map. cbn [fst snd].
  rewrite lsum_seq. ring.
Qed.

(** ** Conversion to a Markov chain *)
Definition good_iid (d : iid) : Prop :=
  match d with Equi _ => True | Finite p w => vlen w = nrow p end.

Lemma to_mc_spec : forall d, good_iid d ->
    exists P, iid_to_mc d = Ok (iid_points d, P) /\ nrow P = iid_n d /\ ncol P = iid_n d /\
      forall i j, mget P i j = iid_weight d j.
Proof.
  intros [p|p w] H; simpl in H.
  - unfold iid_to_mc, finite_distribution. cbn [iid_weights vlen]. rewrite Nat.eqb_refl. cbn [bind].
    eexists. split; [reflexivity|]. cbn. repeat split.
  - eexists. split; [reflexivity|]. cbn. unfold iid_n; simpl. rewrite H. repeat split.
Qed.

Lemma to_mc_expect : forall d, good_iid d ->
    exists P, iid_to_mc d = Ok (iid_points d, P) /\
      (forall i f, (i < iid_n d)%nat ->
         expect (ncol P) (mget P i) (row (iid_points d)) f = iid_integrate d f) /\
      (is_law (iid_n d) (iid_weight d) -> stochastic (iid_n d) P).
Proof.
  intros d H. destruct (to_mc_spec d H) as (P & E & Hr & Hc & Hg).
  exists P. split; [exact E|]. split.
  - intros i f Hi. rewrite integrate_sum. unfold expect. rewrite Hc. apply rsum_ext. intros j Hj.
    rewrite Hg. reflexivity.
  - intros [L1 L2]. split; [exact Hr|]. split; [exact Hc|]. split.
    + intros i j Hi Hj. rewrite Hg. apply L1, Hj.
    + intros i Hi. rewrite <- L2. apply rsum_ext. intros. apply Hg.
Qed.

Lemma finite_good : forall p w d, finite_distribution p w = Ok d -> d = Finite p w /\ good_iid d.
Proof.
  intros p w d H. unfold finite_distribution in H. destruct (Nat.eqb_spec (vlen w) (nrow p)); [|discriminate].
  injection H as <-. split; [reflexivity|exact e].
Qed.

Lemma equi_law : forall p, (0 < nrow p)%nat -> is_law (iid_n (Equi p)) (iid_weight (Equi p)).
Proof.
  intros p Hp. assert (0 < INR (nrow p)) by (apply lt_0_INR; exact Hp). split.
  - intros i _. simpl. left. apply Rdiv_lt_0_compat; lra.
  - change (rsum (nrow p) (fun _ => 1 / INR (nrow p)) = 1). rewrite rsum_const. field. lra.
Qed.

(** ** Products *)
Lemma seq_axes_length : forall nn, map (@length nat) (map (seq 0) nn) = nn.
Proof. induction nn; simpl; [reflexivity|]. rewrite IHnn, seq_length. reflexivity. Qed.

Lemma map_nth_seq : forall (l : list R), map (fun k => nth k l 0) (seq 0 (length l)) = l.
Proof.
  intros l. apply nth_ext with (d := 0) (d' := 0); [rewrite map_length, seq_length; reflexivity|].
  intros i Hi. rewrite map_length, seq_length in Hi.
  rewrite (nth_indep _ 0 (nth 0 l 0)) by (rewrite map_length, seq_length; exact Hi).
  rewrite (map_nth (fun k => nth k l 0)). rewrite seq_nth by exact Hi. reflexivity.
Qed.

Lemma row_length : forall m i, length (row m i) = ncol m.
Proof. intros. unfold row. rewrite map_length, seq_length. reflexivity. Qed.

Lemma product_row_length : forall iids i cart r, length (product_row iids i cart r) = sum_dims iids.
Proof.
  induction iids as [|d ds IH]; intros; simpl; [reflexivity|].
  rewrite app_length, row_length, IH. reflexivity.
Qed.

Lemma product_row_points : forall iids i cart r is, length is = length iids ->
    (forall k, (k < length iids)%nat -> cart r (i + k)%nat = nth k is 0%nat) ->
    product_row iids i cart r = concat (points_at (map iid_point iids) is).
Proof.
  induction iids as [|d ds IH]; intros i cart r is Hl Hc; simpl; [reflexivity|].
  destruct is as [|j is]; [discriminate|]. simpl in Hl.
  cbn [map points_at concat]. rewrite (IH (S i) cart r is).
  - pose proof (Hc 0%nat ltac:(simpl; lia)) as H0. rewrite Nat.add_0_r in H0. rewrite H0. reflexivity.
  - lia.
  - intros k Hk. replace (S i + k)%nat with (i + S k)%nat by lia. rewrite Hc by (simpl; lia). reflexivity.
Qed.

Lemma weights_good : forall d, good_iid d -> vlen (iid_weights d) = iid_n d.
Proof. intros [p|p w] H; simpl in *; [reflexivity|exact H]. Qed.

Lemma weights_get : forall d i, vget (iid_weights d) i = iid_weight d i.
Proof. intros [p|p w] i; reflexivity. Qed.

Lemma product_iid_spec : forall iids, iids <> [] -> Forall good_iid iids ->
    Forall (fun d => 0 < iid_n d)%nat iids ->
    exists p, product_iid iids = Ok p /\ good_iid p /\
      iid_n p = prodn (map iid_n iids) /\ iid_d p = sum_dims iids /\
      forall r, (r < iid_n p)%nat ->
        iid_point p r = concat (points_at (map iid_point iids) (digits (map iid_n iids) r)) /\
        iid_weight p r = prodl (map iid_weight iids) (digits (map iid_n iids) r).
Proof.
  intros iids Hne Hg Hp. destruct iids as [|f0 rest]; [contradiction|]. clear Hne.
  set (iids := f0 :: rest) in *.
  assert (Hnn : map (fun f => vlen (iid_weights f)) iids = map iid_n iids).
  { apply map_ext_in. intros d Hd. apply weights_good. rewrite Forall_forall in Hg. apply Hg, Hd. }
  assert (Hpw : Forall (fun d => 0 < vlen (iid_weights d))%nat iids).
  { rewrite Forall_forall in *. intros d Hd. rewrite weights_good by (apply Hg, Hd). apply Hp, Hd. }
  destruct (kron_weights iid iid_weights f0 rest Hpw) as [K1 K2]. fold iids in K1, K2.
  rewrite Hnn in K1, K2.
  unfold product_iid. fold iids. cbn [iids]. fold iids.
  change (match iids with [] => Err ExcIndex | _ => ?x end) with x.
  cbv zeta. rewrite Hnn.
  set (cart := cartesian_into 0%nat (fun x => x) (length (map iid_n iids)) (map (seq 0) (map iid_n iids)) 0 (fun _ _ => 0%nat)).
  assert (Hcart : enumerates 0%nat (map (seq 0) (map iid_n iids)) cart).
  { intros idx Hv k Hk.
    pose proof (proj1 (cartesian_into_spec nat 0%nat (fun x => x) (map (seq 0) (map iid_n iids))
      (length (map iid_n iids)) 0 (fun _ _ => 0%nat)
      ltac:(rewrite Forall_map, Forall_map; eapply Forall_impl; [|exact Hp]; intros; simpl; rewrite seq_length; assumption)
      ltac:(rewrite map_length; lia)) idx Hv k Hk) as H. exact H. }
  unfold finite_distribution. cbn [nrow]. rewrite K1. rewrite Nat.eqb_refl.
  eexists. split; [reflexivity|]. split; [exact K1|]. split; [reflexivity|]. split; [reflexivity|].
  unfold iid_n at 1. cbn [iid_points nrow]. intros r Hr.
  split.
  - unfold iid_point. cbn [iid_points]. unfold row. cbn [ncol mget].
    rewrite <- (product_row_length iids 0 cart r), map_nth_seq.
    apply product_row_points.
    + rewrite digits_length, map_length. reflexivity.
    + intros k Hk. rewrite Nat.add_0_l.
      rewrite (enumerates_digits nat 0%nat _ cart r k Hcart); rewrite ?seq_axes_length, ?map_length; try assumption.
      assert (Hd : (nth k (digits (map iid_n iids) r) 0 < nth k (map iid_n iids) 0)%nat).
      { apply nth_index_lt; [apply digits_valid, Hr|]. rewrite map_length; exact Hk. }
      rewrite (nth_indep _ [] (seq 0 0%nat)) by (rewrite !map_length; exact Hk).
      rewrite (map_nth (seq 0)). rewrite seq_nth by exact Hd. reflexivity.
  - unfold iid_weight. rewrite K2. f_equal. apply map_ext_in. intros d _. destruct d; reflexivity.
Qed.
