From Coq Require Import String Reals List Arith Lia Lra.
From Verif.Base Require Import Prelude Sums Arrays Ext.
From Verif.Spec Require Import Product Law Markov.
From Verif.Model Require Import Discretization Grids Distributions.
From Verif.Proofs Require Import GridProofs DivMod LawProofs.
Import ListNotations.
Open Scope R_scope.

(** ** Products *)
Lemma product_points : forall iids, iids <> [] -> Forall good_iid iids ->
    Forall (fun d => 0 < iid_n d)%nat iids ->
    exists p, product_iid iids = Ok p /\ good_iid p /\
      iid_n p = prodn (map iid_n iids) /\
      forall idx, valid_index (map iid_n iids) idx ->
        iid_point p (rank (map iid_n iids) idx) = concat (points_at (map iid_point iids) idx) /\
        iid_weight p (rank (map iid_n iids) idx) = prodl (map iid_weight iids) idx.
Proof.
  intros iids H1 H2 H3. destruct (product_iid_spec iids H1 H2 H3) as (p & E & G & N & D & H).
  exists p. split; [exact E|]. split; [exact G|]. split; [exact N|]. intros idx Hv.
  destruct (H (rank (map iid_n iids) idx)) as [P W]; [rewrite N; apply rank_lt, Hv|].
  rewrite rank_digits in P, W by exact Hv. split; assumption.
Qed.

Definition factor (d : iid) (f : list R -> R) : nat -> R := fun i => iid_weight d i * f (iid_point d i).

Fixpoint factors (iids : list iid) (fs : list (list R -> R)) : list (nat -> R) :=
  match iids, fs with d :: ds, f :: fs' => factor d f :: factors ds fs' | _, _ => [] end.

Lemma factors_length : forall iids fs, length fs = length iids -> length (factors iids fs) = length iids.
Proof. induction iids as [|d ds IH]; intros [|f fs] H; simpl in *; try lia. rewrite IH by lia. reflexivity. Qed.

Lemma factors_prodl : forall iids fs is, length fs = length iids -> length is = length iids ->
    prodl (factors iids fs) is = prodl (map iid_weight iids) is * prod_values fs (points_at (map iid_point iids) is).
Proof.
  induction iids as [|d ds IH]; intros [|f fs] [|i is] H1 H2; simpl in *; try lia; try lra.
  rewrite IH by lia. unfold factor. ring.
Qed.

Lemma prod_sums_factors : forall iids fs, length fs = length iids ->
    prod_sums (map iid_n iids) (factors iids fs)
    = prod_all (map (fun df => iid_integrate (fst df) (snd df)) (combine iids fs)).
Proof.
  induction iids as [|d ds IH]; intros [|f fs] H; simpl in *; try lia; try reflexivity.
  rewrite IH by lia. rewrite integrate_sum. reflexivity.
Qed.

Lemma points_blocks : forall iids is, length is = length iids ->
    blocks_of (map iid_d iids) (points_at (map iid_point iids) is).
Proof.
  induction iids as [|d ds IH]; intros [|i is] H; simpl in *; try lia; constructor.
  - apply row_length.
  - apply IH. lia.
Qed.

Lemma product_integrate : forall iids fs F p,
    iids <> [] -> Forall good_iid iids -> Forall (fun d => 0 < iid_n d)%nat iids ->
    product_iid iids = Ok p -> length fs = length iids ->
    (forall xs, blocks_of (map iid_d iids) xs -> F (concat xs) = prod_values fs xs) ->
    iid_integrate p F = prod_all (map (fun df => iid_integrate (fst df) (snd df)) (combine iids fs)).
Proof.
  intros iids fs F p H1 H2 H3 E Hl HF.
  destruct (product_iid_spec iids H1 H2 H3) as (p' & E' & G & N & D & H).
  rewrite E in E'. injection E' as <-.
  rewrite integrate_sum, <- prod_sums_factors by exact Hl.
  rewrite <- rsum_prodl by (rewrite factors_length, map_length; auto).
  unfold expect. rewrite N. apply rsum_ext. intros r Hr.
  destruct (H r) as [P W]; [rewrite N; exact Hr|]. rewrite P, W.
  rewrite HF by (apply points_blocks; rewrite digits_length, map_length; reflexivity).
  rewrite factors_prodl by (rewrite ?digits_length, ?map_length; auto). reflexivity.
Qed.

Lemma prod_all_ones : forall l, Forall (fun x => x = 1) l -> prod_all l = 1.
Proof. induction 1; simpl; [reflexivity|]. rewrite H, IHForall. ring. Qed.

Lemma product_law : forall iids p,
    iids <> [] -> Forall good_iid iids -> Forall (fun d => is_law (iid_n d) (iid_weight d)) iids ->
    product_iid iids = Ok p -> is_law (iid_n p) (iid_weight p).
Proof.
  intros iids p H1 H2 HL E.
  assert (H3 : Forall (fun d => 0 < iid_n d)%nat iids).
  { eapply Forall_impl; [|exact HL]. intros d [_ Hs]. destruct (iid_n d); [simpl in Hs; lra|lia]. }
  destruct (product_iid_spec iids H1 H2 H3) as (p' & E' & G & N & D & H).
  rewrite E in E'. injection E' as <-. split.
  - intros r Hr. destruct (H r Hr) as [_ ->]. rewrite N in Hr. apply digits_valid in Hr. clear - HL Hr.
    remember (digits (map iid_n iids) r) as idx. clear Heqidx. revert idx Hr.
    induction HL as [|d ds Hd HL IH]; intros idx Hv; inversion Hv; subst; simpl; [lra|].
    apply Rmult_le_pos; [apply Hd; assumption|]. apply IH. assumption.
  - transitivity (iid_integrate p (fun _ => 1)).
    { rewrite integrate_sum. unfold expect. apply rsum_ext. intros; ring. }
    rewrite (product_integrate iids (map (fun _ _ => 1) iids) (fun _ => 1) p H1 H2 H3 E).
    + apply prod_all_ones. apply Forall_map. clear - HL. induction HL as [|d ds Hd HL IH]; simpl; constructor; [|exact IH].
      cbn [fst snd]. rewrite integrate_sum. unfold expect. destruct Hd as [_ Hs].
      transitivity (rsum (iid_n d) (iid_weight d)); [apply rsum_ext; intros; ring|exact Hs].
    + rewrite map_length. reflexivity.
    + intros xs _. clear. revert xs. induction iids as [|d ds IH]; intros [|x xs]; simpl; try reflexivity.
      rewrite <- IH. ring.
Qed.

Lemma product_one : forall d p, good_iid d -> (0 < iid_n d)%nat -> product_iid [d] = Ok p ->
    iid_n p = iid_n d /\ forall i, (i < iid_n d)%nat -> iid_point p i = iid_point d i /\ iid_weight p i = iid_weight d i.
Proof.
  intros d p G P E.
  destruct (product_iid_spec [d] ltac:(discriminate) ltac:(auto) ltac:(auto)) as (p' & E' & _ & N & D & H).
  rewrite E in E'. injection E' as <-. simpl in N. rewrite Nat.mul_1_r in N. split; [exact N|].
  intros i Hi. destruct (H i ltac:(lia)) as [Hp Hw]. rewrite Hp, Hw. simpl. rewrite Nat.div_1_r, app_nil_r.
  split; [reflexivity|ring].
Qed.

(** ** Mixtures *)
Lemma mixture_items_spec : forall index dists n i items,
    mixture_items index dists n i = Ok items ->
    exists ds, length ds = n /\
      (forall k, (k < n)%nat -> dists (i + k)%nat = Ok (nth k ds (Equi (Mat 0 0 (fun _ _ => 0))))) /\
      (forall f, lsum (map (fun wx => fst wx * f (snd wx)) items)
       = rsum n (fun k => iid_weight index (i + k)%nat * iid_integrate (nth k ds (Equi (Mat 0 0 (fun _ _ => 0)))) f)) /\
      (forall wx, In wx items -> exists d j k, In d ds /\ (k < n)%nat /\ d = nth k ds (Equi (Mat 0 0 (fun _ _ => 0)))
            /\ (j < iid_n d)%nat /\ snd wx = iid_point d j /\ fst wx = iid_weight index (i + k)%nat * iid_weight d j).
Proof.
  induction n as [|n IH]; intros i items H; cbn [mixture_items] in H.
  - injection H as <-. exists []. simpl. split; [reflexivity|]. split; [intros; lia|]. split; [reflexivity|]. intros ? [].
  - destruct (dists i) as [d|] eqn:Ed; [|discriminate]. cbn [bind] in H.
    destruct (mixture_items index dists n (S i)) as [rest|] eqn:Er; [|discriminate]. cbn [bind] in H.
    injection H as <-. destruct (IH (S i) rest Er) as (ds & Hl & Hd & Hs & Hi).
    exists (d :: ds). split; [simpl; lia|]. split; [|split].
    + intros [|k] Hk; [rewrite Nat.add_0_r; exact Ed|]. replace (i + S k)%nat with (S i + k)%nat by lia.
      simpl. apply Hd. lia.
    + intros f. rewrite map_app, lsum_app, Hs, rsum_head. rewrite Nat.add_0_r. f_equal.
      * rewrite map_map. cbn [fst snd nth]. rewrite integrate_sum. unfold expect, iid_items.
        rewrite map_map. cbn [fst snd]. rewrite lsum_seq, <- rsum_scal. apply rsum_ext. intros; ring.
      * apply rsum_ext. intros k Hk. replace (i + S k)%nat with (S i + k)%nat by lia. reflexivity.
    + intros wx Hin. apply in_app_or in Hin. destruct Hin as [Hin|Hin].
      * apply in_map_iff in Hin. destruct Hin as (wx0 & <- & Hin). unfold iid_items in Hin.
        apply in_map_iff in Hin. destruct Hin as (j & <- & Hj). apply in_seq in Hj.
        exists d, j, 0%nat. cbn [fst snd nth]. rewrite Nat.add_0_r.
        split; [left; reflexivity|]. split; [lia|]. split; [reflexivity|]. split; [lia|]. split; reflexivity.
      * destruct (Hi wx Hin) as (d' & j & k & A & B & C & D & E & F).
        exists d', j, (S k). split; [right; exact A|]. split; [lia|]. split; [exact C|]. split; [exact D|].
        split; [exact E|]. replace (i + S k)%nat with (S i + k)%nat by lia. exact F.
Qed.

Lemma rsum_nth_map : forall {T} (l : list T) (g : T -> R),
    lsum (map g l) = rsum (length l) (fun i => nth i (map g l) 0).
Proof. intros. rewrite lsum_rsum, map_length. reflexivity. Qed.

Lemma mat_of_rows_spec : forall l m, mat_of_rows l = Ok m ->
    nrow m = length l /\ forall i, (i < length l)%nat -> row m i = nth i l [].
Proof.
  intros l m H. unfold mat_of_rows in H. destruct l as [|r0 rs]; [discriminate|].
  set (l := r0 :: rs) in *. destruct (forallb _ l) eqn:Ef; [|discriminate].
  assert (E : m = Mat (length l) (length r0) (fun i j => nth j (nth i l []) 0)) by congruence.
  rewrite E. split; [reflexivity|]. intros i Hi. unfold row. cbn [ncol mget].
  rewrite forallb_forall in Ef. specialize (Ef (nth i l []) (nth_In _ _ Hi)). apply Nat.eqb_eq in Ef.
  rewrite <- Ef. apply map_nth_seq.
Qed.

Lemma mixture_integrate : forall index dists m,
    mixture_iid index dists = Ok m ->
    exists ds, length ds = iid_n index /\
      (forall k, (k < iid_n index)%nat -> dists k = Ok (nth k ds (Equi (Mat 0 0 (fun _ _ => 0))))) /\
      forall f, iid_integrate m f
        = rsum (iid_n index) (fun k => iid_weight index k * iid_integrate (nth k ds (Equi (Mat 0 0 (fun _ _ => 0)))) f).
Proof.
  intros index dists m H. unfold mixture_iid in H.
  destruct (mixture_items index dists (iid_n index) 0) as [items|] eqn:Ei; [|discriminate]. cbn [bind] in H.
  destruct (mat_of_rows (map snd items)) as [nodes|] eqn:En; [|discriminate]. cbn [bind] in H.
  apply finite_good in H. destruct H as [-> Hg]. simpl in Hg.
  destruct (mixture_items_spec _ _ _ _ _ Ei) as (ds & Hl & Hd & Hs & _).
  exists ds. split; [exact Hl|]. split; [exact Hd|]. intros f.
  rewrite (rsum_ext _ _ (fun k => iid_weight index (0 + k)%nat * iid_integrate (nth k ds (Equi (Mat 0 0 (fun _ _ => 0)))) f)) by reflexivity.
  rewrite <- Hs. rewrite integrate_sum. unfold expect. rewrite rsum_nth_map.
  destruct (mat_of_rows_spec _ _ En) as [Hn Hrow].
  unfold iid_n. cbn [iid_points]. rewrite Hn, map_length. apply rsum_ext. intros i Hi.
  rewrite (nth_indep _ 0 ((fun wx => fst wx * f (snd wx)) (0, []))) by (rewrite map_length; exact Hi).
  rewrite (map_nth (fun wx => fst wx * f (snd wx))). cbn [iid_weight vget].
  rewrite (nth_indep (map fst items) 0 (fst (0, @nil R))) by (rewrite map_length; exact Hi).
  rewrite (map_nth fst). f_equal. f_equal. unfold iid_point. cbn [iid_points].
  rewrite Hrow by (rewrite map_length; exact Hi).
  rewrite (nth_indep (map snd items) [] (snd (0, @nil R))) by (rewrite map_length; exact Hi).
  apply (map_nth snd).
Qed.

(** Mixtures built from an index law taking the values 0, 1, ... in order. *)
Lemma mixture_by_value : forall index dists (comp : R -> iid) m,
    mixture_iid index dists = Ok m ->
    (forall k, (k < iid_n index)%nat -> dists k = Ok (comp (INR k))) ->
    (forall k, (k < iid_n index)%nat -> iid_point index k = [INR k]) ->
    forall f, iid_integrate m f = iid_integrate index (fun v => iid_integrate (comp (coord 0 v)) f).
Proof.
  intros index dists comp m H Hd Hp f.
  destruct (mixture_integrate index dists m H) as (ds & Hl & Hds & Hf).
  rewrite Hf, integrate_sum. unfold expect. apply rsum_ext. intros k Hk.
  rewrite Hp by exact Hk. unfold coord. simpl nth at 2.
  specialize (Hds k Hk). rewrite Hd in Hds by exact Hk. injection Hds as <-. reflexivity.
Qed.

Definition point_mass (v : R) : iid := Finite (Mat 1 1 (fun _ _ => v)) (Vec 1 (fun _ => 1)).
Definition index10 : iid := Finite (Mat 2 1 (fun i _ => if Nat.eqb i 0 then 1 else 0))
                                   (Vec 2 (fun i => if Nat.eqb i 0 then 1 / 4 else 3 / 4)).

Lemma point_mass_integrate : forall v f, iid_integrate (point_mass v) f = f [v].
Proof.
  intros. rewrite integrate_sum. unfold expect, point_mass, iid_n, iid_point, row.
  cbn [iid_points nrow ncol mget seq map rsum iid_weight vget]. ring.
Qed.

Lemma mixture_wrong :
    exists m, mixture_iid index10 (fun i => Ok (point_mass (INR i))) = Ok m /\
      is_law (iid_n index10) (iid_weight index10) /\
      iid_integrate m (coord 0) = 3 / 4 /\
      iid_integrate index10 (fun v => iid_integrate (point_mass (coord 0 v)) (coord 0)) = 1 / 4.
Proof.
  assert (E : exists m, mixture_iid index10 (fun i => Ok (point_mass (INR i))) = Ok m).
  { eexists. unfold mixture_iid. cbn. reflexivity. }
  destruct E as [m E]. exists m. split; [exact E|]. split; [|split].
  - split; [|unfold iid_n; simpl; lra]. intros [|[|i]] Hi; simpl; try lra; unfold iid_n in Hi; simpl in Hi; lia.
  - destruct (mixture_integrate _ _ _ E) as (ds & Hl & Hd & Hf). rewrite Hf.
    change (iid_n index10) with 2%nat in *.
    pose proof (Hd 0%nat ltac:(lia)) as H0. pose proof (Hd 1%nat ltac:(lia)) as H1.
    injection H0 as H0. injection H1 as H1. cbn [rsum]. rewrite <- H0, <- H1.
    rewrite !point_mass_integrate. unfold coord. simpl. lra.
  - rewrite integrate_sum. unfold expect. change (iid_n index10) with 2%nat. cbn [rsum].
    rewrite !point_mass_integrate. unfold coord, iid_point, row, index10. simpl. lra.
Qed.

Lemma mixture_draw_zero : forall inds draws n j,
    (forall kd, In kd draws -> exists s, fst kd = KeyStr s) ->
    mixture_draw inds draws n j = 0.
Proof.
  intros inds draws n j H. unfold mixture_draw.
  assert (G : forall l a, (forall kd, In kd l -> exists s, fst kd = KeyStr s) ->
     fold_left (fun acc kd => acc + key_matches (inds n) (fst kd) * snd kd n j) l a = a).
  { induction l as [|kd l IH]; intros a Hl; simpl; [reflexivity|].
    rewrite IH by (intros; apply Hl; right; assumption).
    destruct (Hl kd (or_introl eq_refl)) as [s ->]. simpl. ring. }
  apply G, H.
Qed.

(** ** Equiprobable discretisation *)
Lemma median_quantile : forall N i, (1 <= N)%nat -> (i < N)%nat ->
    linspace (1 / 2 / INR N) (1 - 1 / 2 / INR N) N i = (INR i + 1 / 2) / INR N.
Proof.
  intros N i HN Hi. unfold linspace. assert (0 < INR N) by (apply lt_0_INR; lia).
  destruct (Nat.eqb_spec N 1) as [->|HN1].
  - assert (i = 0%nat) as -> by lia. simpl. lra.
  - assert (INR N - 1 <> 0) by (pose proof (INR_pred_pos N ltac:(lia)); lra). field. lra.
Qed.

Lemma left_quantile : forall N i, (1 <= N)%nat -> (i < N)%nat ->
    linspace 0 (1 - 1 / INR N) N i = INR i / INR N.
Proof.
  intros N i HN Hi. unfold linspace. assert (0 < INR N) by (apply lt_0_INR; lia).
  destruct (Nat.eqb_spec N 1) as [->|HN1].
  - assert (i = 0%nat) as -> by lia. simpl. lra.
  - assert (INR N - 1 <> 0) by (pose proof (INR_pred_pos N ltac:(lia)); lra). field. lra.
Qed.

Lemma right_quantile : forall N i, (1 <= N)%nat -> (i < N)%nat ->
    linspace (1 / INR N) 1 N i = (INR i + 1) / INR N.
Proof.
  intros N i HN Hi. unfold linspace. assert (0 < INR N) by (apply lt_0_INR; lia).
  destruct (Nat.eqb_spec N 1) as [->|HN1].
  - assert (i = 0%nat) as -> by lia. simpl. lra.
  - assert (INR N - 1 <> 0) by (pose proof (INR_pred_pos N ltac:(lia)); lra). field. lra.
Qed.

Lemma middle_quantile : forall N i, (1 <= N)%nat ->
    linspace 0 1 (N + 1) i = INR i / INR N.
Proof.
  intros N i HN. unfold linspace. assert (0 < INR N) by (apply lt_0_INR; lia).
  destruct (Nat.eqb_spec (N + 1) 1); [lia|]. rewrite plus_INR. simpl (INR 1). field. lra.
Qed.

Lemma ep_nonzero : forall (N : nat) (x : res iid), (1 <= N)%nat -> (if Nat.eqb N 0 then Err ExcZeroDiv else x) = x.
Proof. intros [|N] x H; [lia|reflexivity]. Qed.

Lemma ep_spec : forall (F ppf : R -> R) N,
    (1 <= N)%nat ->
    (forall p, 0 < p < 1 -> F (ppf p) = p) ->
    exists d, discretize_ep ppf N MPmedian = Ok d /\ iid_n d = N /\
      (forall i, (i < N)%nat -> iid_weight d i = 1 / INR N) /\
      forall i, (i < N)%nat -> exists q, iid_point d i = [q] /\
        F q - INR i / INR N = 1 / 2 * (1 / INR N) /\ INR (S i) / INR N - F q = 1 / 2 * (1 / INR N).
Proof.
  intros F ppf N HN HF. eexists. split; [exact (ep_nonzero _ _ HN)|]. split; [reflexivity|].
  split; [intros; reflexivity|]. intros i Hi. unfold iid_point, row. cbn [iid_points ncol mget seq map].
  eexists. split; [reflexivity|]. rewrite median_quantile by assumption.
  assert (0 < INR N) by (apply lt_0_INR; lia).
  assert (0 < (INR i + 1 / 2) / INR N < 1).
  { split; [apply Rdiv_lt_0_compat; [pose proof (pos_INR i)|]; lra|].
    apply Rmult_lt_reg_r with (INR N); [assumption|]. unfold Rdiv. rewrite Rmult_assoc, Rinv_l by lra.
    apply le_INR in Hi. rewrite S_INR in Hi. lra. }
  rewrite HF by assumption. rewrite S_INR. split; field; lra.
Qed.

Lemma ep_points : forall ppf N, (1 <= N)%nat ->
    (exists d, discretize_ep ppf N MPleft = Ok d /\ iid_n d = N /\
       forall i, (i < N)%nat -> iid_point d i = [ppf (INR i / INR N)] /\ iid_weight d i = 1 / INR N) /\
    (exists d, discretize_ep ppf N MPright = Ok d /\ iid_n d = N /\
       forall i, (i < N)%nat -> iid_point d i = [ppf (INR (S i) / INR N)] /\ iid_weight d i = 1 / INR N) /\
    (exists d, discretize_ep ppf N MPmiddle = Ok d /\ iid_n d = N /\
       forall i, (i < N)%nat -> iid_point d i = [(ppf (INR i / INR N) + ppf (INR (S i) / INR N)) / 2] /\ iid_weight d i = 1 / INR N).
Proof.
  intros ppf N HN. split; [|split].
  - eexists. split; [exact (ep_nonzero _ _ HN)|]. split; [reflexivity|]. intros i Hi. split; [|reflexivity].
    unfold iid_point, row. cbn [iid_points ncol mget seq map]. rewrite left_quantile by assumption. reflexivity.
  - eexists. split; [exact (ep_nonzero _ _ HN)|]. split; [reflexivity|]. intros i Hi. split; [|reflexivity].
    unfold iid_point, row. cbn [iid_points ncol mget seq map]. rewrite right_quantile by assumption.
    rewrite S_INR. reflexivity.
  - eexists. split; [exact (ep_nonzero _ _ HN)|]. split; [reflexivity|]. intros i Hi. split; [|reflexivity].
    unfold iid_point, row. cbn [iid_points ncol mget seq map]. rewrite !middle_quantile by assumption.
    f_equal. lra.
Qed.

Lemma ep_monotone : forall (ppf : R -> R) N mp d,
    (1 <= N)%nat -> (forall p q, 0 <= p <= 1 -> 0 <= q <= 1 -> p <= q -> ppf p <= ppf q) ->
    discretize_ep ppf N mp = Ok d ->
    forall i j, (i <= j)%nat -> (j < N)%nat -> coord 0 (iid_point d i) <= coord 0 (iid_point d j).
Proof.
  intros ppf N mp d HN Hm E i j Hij Hj.
  assert (HNp : 0 < INR N) by (apply lt_0_INR; lia).
  assert (Hi0 := pos_INR i). assert (Hj0 := pos_INR j).
  assert (Hij' : INR i <= INR j) by (apply le_INR; exact Hij).
  assert (Hj1 : INR j + 1 <= INR N) by (apply le_INR in Hj; rewrite S_INR in Hj; exact Hj).
  assert (Hdiv : forall a b, a <= b -> a / INR N <= b / INR N).
  { intros a b Hab. unfold Rdiv. apply Rmult_le_compat_r; [left; apply Rinv_0_lt_compat; assumption|exact Hab]. }
  assert (H01 : forall a, 0 <= a <= INR N -> 0 <= a / INR N <= 1).
  { intros a [Ha Hb]. split.
    - replace 0 with (0 / INR N) by (unfold Rdiv; ring). apply Hdiv, Ha.
    - replace 1 with (INR N / INR N) by (field; lra). apply Hdiv, Hb. }
  destruct mp; cbn in E; try discriminate; rewrite (ep_nonzero _ _ HN) in E; injection E as <-;
    unfold coord, iid_point, row; cbn [iid_points ncol mget seq map nth].
  - rewrite !median_quantile by lia. apply Hm; [apply H01; lra|apply H01; lra|apply Hdiv; lra].
  - rewrite !left_quantile by lia. apply Hm; [apply H01; lra|apply H01; lra|apply Hdiv; lra].
  - rewrite !middle_quantile by lia. rewrite !S_INR.
    assert (ppf ((INR i + 1) / INR N) <= ppf ((INR j + 1) / INR N))
      by (apply Hm; [apply H01; lra|apply H01; lra|apply Hdiv; lra]).
    assert (ppf (INR i / INR N) <= ppf (INR j / INR N))
      by (apply Hm; [apply H01; lra|apply H01; lra|apply Hdiv; lra]).
    lra.
  - rewrite !right_quantile by lia. apply Hm; [apply H01; lra|apply H01; lra|apply Hdiv; lra].
Qed.

Lemma mc_ignores_N : forall ppf gh N N' m m' mp mp',
    univariate_discretize ppf gh ToMc N m mp = univariate_discretize ppf gh ToMc N' m' mp' /\
    exists c, univariate_discretize ppf gh ToMc N m mp = Ok (DChain c) /\ nrow (fst c) = 5%nat.
Proof.
  intros. split; [reflexivity|]. eexists. split; [reflexivity|]. reflexivity.
Qed.

Lemma rsum_INR : forall n, rsum n INR = INR n * (INR n - 1) / 2.
Proof. induction n as [|n IH]; [simpl; lra|]. cbn [rsum]. rewrite IH, S_INR. lra. Qed.

Lemma uniform_mean : forall a b N d, (1 <= N)%nat ->
    discretize_ep (uniform_ppf a b) N MPmedian = Ok d ->
    mean (iid_n d) (iid_weight d) (iid_point d) 0 = (a + b) / 2.
Proof.
  intros a b N d HN E. cbn in E. rewrite (ep_nonzero _ _ HN) in E. injection E as <-. unfold mean, expect, iid_n. cbn [iid_points nrow].
  assert (0 < INR N) by (apply lt_0_INR; lia).
  rewrite (rsum_ext _ _ (fun i => (a / INR N + (b - a) / (2 * INR N * INR N)) + (b - a) / (INR N * INR N) * INR i)).
  - rewrite rsum_plus, rsum_const, rsum_scal, rsum_INR. field. lra.
  - intros i Hi. unfold coord, iid_point, row. cbn [iid_points ncol mget seq map nth].
    rewrite median_quantile by lia. unfold uniform_ppf. simpl. field. lra.
Qed.

(** ** Truncation *)
Lemma trunc_quantile : forall F ppf lb ub p,
    (forall q, 0 < q < 1 -> F (ppf q) = q) ->
    0 <= trunc_min_q F lb -> trunc_max_q F ub <= 1 -> trunc_min_q F lb < trunc_max_q F ub ->
    0 < p < 1 ->
    (F (trunc_ppf F ppf lb ub p) - trunc_min_q F lb) / (trunc_max_q F ub - trunc_min_q F lb) = p.
Proof.
  intros F ppf lb ub p HF H0 H1 Hlt Hp. unfold trunc_ppf. cbv zeta. rewrite HF; [field; lra|]. nra.
Qed.

Lemma trunc_in_bounds : forall F ppf lb ub p,
    (forall q, 0 < q < 1 -> F (ppf q) = q) ->
    (forall x y, x < y -> F x <= F y) ->
    0 <= trunc_min_q F lb -> trunc_max_q F ub <= 1 -> trunc_min_q F lb < trunc_max_q F ub ->
    0 < p < 1 ->
    ext_le_l lb (trunc_ppf F ppf lb ub p) /\ ext_le_r (trunc_ppf F ppf lb ub p) ub.
Proof.
  intros F ppf lb ub p HF Hm H0 H1 Hlt Hp.
  set (q := trunc_min_q F lb + (trunc_max_q F ub - trunc_min_q F lb) * p).
  assert (Hq : trunc_min_q F lb < q < trunc_max_q F ub) by (unfold q; nra).
  assert (HFq : F (ppf q) = q) by (apply HF; lra).
  unfold trunc_ppf. cbv zeta. fold q. split.
  - destruct lb as [|l|]; simpl in *; [exact I| |lra].
    destruct (Rle_lt_dec l (ppf q)); [assumption|]. exfalso. apply Hm in r. lra.
  - destruct ub as [|u|]; simpl in *; [lra| |exact I].
    destruct (Rle_lt_dec (ppf q) u); [assumption|]. exfalso. apply Hm in r. lra.
Qed.

(** ** Bernouilli *)
Lemma bernouilli_spec : forall pi, exists d, bernouilli_iid pi = Ok d /\
    iid_n d = 2%nat /\ iid_point d 0 = [0] /\ iid_point d 1 = [1] /\ iid_weight d 0 = 1 - pi /\ iid_weight d 1 = pi.
Proof. intros. eexists. split; [reflexivity|]. repeat split. Qed.

Lemma bernouilli_draw_law : forall pi,
    (* one draw from a uniform source over {0,1} *)
    expect 2 (fun _ => 1 / 2) (fun s => [mget (bernouilli_draw pi (fun _ => s) 1) 0 0]) (coord 0) = 1 / 2.
Proof. intros. unfold expect, coord. simpl. lra. Qed.

Lemma bernouilli_draw_ignores : forall pi pi' rng N, bernouilli_draw pi rng N = bernouilli_draw pi' rng N.
Proof. reflexivity. Qed.

(** ** Gauss-Hermite: symmetry *)
Definition herm_sym (n i : nat) (x w : nat -> R) : Prop :=
  forall k, (k < i)%nat -> (n - 1 - k <> k)%nat -> x (n - 1 - k)%nat = - x k /\ w (n - 1 - k)%nat = w k.

Lemma hermgauss_symmetric : forall n x w, hermgauss n = Ok (x, w) ->
    forall i, (i < n)%nat -> (n - 1 - i <> i)%nat ->
      x (n - 1 - i)%nat = - x i /\ w (n - 1 - i)%nat = w i.
Proof.
  intros n x w H. unfold hermgauss in H. cbv zeta in H.
  match type of H with bind ?e _ = _ => destruct e as [[[z x'] w']|] eqn:E end; [|discriminate].
  cbn [bind] in H. injection H as <- <-.
  assert (HI : herm_sym n ((n + 1) / 2) x' w').
  { apply (for_range_res_inv (fun i st => herm_sym n i (snd (fst st)) (snd st))) in E.
    - exact E.
    - intros k Hk. lia.
    - intros k [[z0 x0] w0] [[z1 x1] w1] Hk HP Hb. cbn [fst snd] in *.
      assert (Hkn : (2 * k + 1 <= n)%nat).
      { pose proof (Nat.div_mod (n + 1) 2 ltac:(lia)). pose proof (Nat.mod_upper_bound (n + 1) 2 ltac:(lia)). lia. }
      destruct (herm_newton 100 n (herm_start n k z0 x0)) as [[z' pp]|]; [|discriminate].
      cbn [bind] in Hb. injection Hb as <- <- <-.
      intros j Hj Hne. destruct (Nat.eq_dec j k) as [->|Hjk].
      + replace (n - k - 1)%nat with (n - 1 - k)%nat by lia. split.
        * rewrite upd_other by lia. rewrite !upd_same. ring.
        * rewrite upd_same. rewrite (upd_other _ (n - 1 - k)%nat) by lia. rewrite !upd_same. reflexivity.
      + assert (Hjlt : (j < k)%nat) by lia. destruct (HP j Hjlt Hne) as [H1 H2].
        replace (n - k - 1)%nat with (n - 1 - k)%nat by lia. split.
        * rewrite !upd_other by lia. exact H1.
        * rewrite !upd_other by lia. exact H2. }
  intros i Hi Hne.
  assert (Hm : (n <= 2 * ((n + 1) / 2))%nat).
  { pose proof (Nat.div_mod (n + 1) 2 ltac:(lia)). pose proof (Nat.mod_upper_bound (n + 1) 2 ltac:(lia)). lia. }
  destruct (le_lt_dec ((n + 1) / 2) i) as [Hle|Hlt].
  - destruct (HI (n - 1 - i)%nat ltac:(lia) ltac:(lia)) as [H1 H2].
    replace (n - 1 - (n - 1 - i))%nat with i in H1, H2 by lia. split; [lra|congruence].
  - apply HI; assumption.
Qed.

Lemma odd_moments_even_order : forall n x w k, hermgauss n = Ok (x, w) -> Nat.even n = true ->
    rsum n (fun i => w i * x i ^ (2 * k + 1)) = 0.
Proof.
  intros n x w k H He.
  assert (Hsym := hermgauss_symmetric n x w H).
  assert (Hne : forall i, (n - 1 - i <> i)%nat \/ n = 0%nat).
  { intros i. destruct (Nat.eq_dec n 0); [right; assumption|left]. intros E.
    assert (n = 2 * i + 1)%nat by lia. subst n. rewrite Nat.even_add, Nat.even_mul in He. simpl in He. discriminate. }
  assert (S2 : rsum n (fun i => w i * x i ^ (2 * k + 1)) = - rsum n (fun i => w i * x i ^ (2 * k + 1))).
  { rewrite rsum_rev at 1. rewrite <- rsum_opp. apply rsum_ext. intros i Hi.
    destruct (Hne i) as [Hi'|]; [|lia]. destruct (Hsym i Hi Hi') as [-> ->].
    replace (- x i) with ((-1) * x i) by ring. rewrite Rpow_mult_distr, pow_add, pow_mult.
    replace ((-1) ^ 2) with 1 by ring. rewrite pow1. ring. }
  lra.
Qed.

Lemma odd_moments_odd_order : forall h x w k, hermgauss (2 * h + 1) = Ok (x, w) ->
    rsum (2 * h + 1) (fun i => w i * x i ^ (2 * k + 1)) = w h * x h ^ (2 * k + 1).
Proof.
  intros h x w k H. assert (Hsym := hermgauss_symmetric _ x w H).
  set (g := fun i => w i * x i ^ (2 * k + 1)).
  set (g' := fun i => g i - (if Nat.eqb i h then g h else 0)).
  assert (Z : rsum (2 * h + 1) g' = - rsum (2 * h + 1) g').
  { rewrite rsum_rev at 1. rewrite <- rsum_opp. apply rsum_ext. intros i Hi. unfold g'.
    destruct (Nat.eq_dec i h) as [->|Hne].
    - replace (2 * h + 1 - 1 - h)%nat with h by lia. rewrite !Nat.eqb_refl. ring.
    - destruct (Nat.eqb_spec (2 * h + 1 - 1 - i) h); [lia|]. destruct (Nat.eqb_spec i h); [lia|].
      unfold g. destruct (Hsym i Hi ltac:(lia)) as [-> ->].
      replace (- x i) with ((-1) * x i) by ring. rewrite Rpow_mult_distr, pow_add, pow_mult.
      replace ((-1) ^ 2) with 1 by ring. rewrite pow1. ring. }
  assert (E : rsum (2 * h + 1) g' = 0) by lra.
  unfold g' in E. rewrite rsum_minus in E.
  rewrite (rsum_single (2 * h + 1) h (fun i => if Nat.eqb i h then g h else 0)) in E.
  - rewrite Nat.eqb_refl in E. fold (g h). fold g. lra.
  - lia.
  - intros i Hi Hne. destruct (Nat.eqb_spec i h); [contradiction|reflexivity].
Qed.
