(** Proofs on tensor contractions. *)
From Coq Require Import String Reals List Arith Bool Lia Lra.
From Verif.Base Require Import Prelude Sums Nda.
From Verif.Spec Require Import Tensor.
From Verif.Model Require Import Tensor.
Import ListNotations.
Open Scope R_scope.

(* ------------------------------------------------------------------ *)
(** ** Lists *)

Lemma firstn_app_exact : forall {A} (a b : list A) n, n = length a -> firstn n (a ++ b) = a.
Proof. intros A a b n ->. rewrite firstn_app, Nat.sub_diag, firstn_all. cbn. apply app_nil_r. Qed.
Lemma skipn_app_exact : forall {A} (a b : list A) n, n = length a -> skipn n (a ++ b) = b.
Proof. intros A a b n ->. rewrite skipn_app, Nat.sub_diag, skipn_all. reflexivity. Qed.

Lemma combine_app : forall {A B} (a1 a2 : list A) (b1 b2 : list B), length a1 = length b1 ->
    combine (a1 ++ a2) (b1 ++ b2) = combine a1 b1 ++ combine a2 b2.
Proof.
  induction a1 as [|x a1 IH]; intros a2 b1 b2 H; destruct b1; cbn in H; try lia; [reflexivity|].
  cbn. rewrite IH by lia. reflexivity.
Qed.

Lemma filter_nodup : forall f (l : list nat), filter f (nodup Nat.eq_dec l) = nodup Nat.eq_dec (filter f l).
Proof.
  intros f. induction l as [|x l IH]; [reflexivity|]. cbn [nodup filter].
  destruct (in_dec Nat.eq_dec x l) as [Hin|Hin]; destruct (f x) eqn:E.
  - cbn [nodup]. destruct (in_dec Nat.eq_dec x (filter f l)) as [_|Hn]; [exact IH|].
    exfalso. apply Hn, filter_In. split; assumption.
  - exact IH.
  - cbn [filter nodup]. rewrite E. destruct (in_dec Nat.eq_dec x (filter f l)) as [Hi|_].
    + apply filter_In in Hi. tauto.
    + rewrite IH. reflexivity.
  - cbn [filter]. rewrite E. exact IH.
Qed.

Lemma nodup_app_incl : forall (a b : list nat), incl a b -> nodup Nat.eq_dec (a ++ b) = nodup Nat.eq_dec b.
Proof.
  induction a as [|x a IH]; intros b H; [reflexivity|]. cbn [app nodup].
  destruct (in_dec Nat.eq_dec x (a ++ b)) as [_|Hn].
  - apply IH. intros y Hy. apply H. right. exact Hy.
  - exfalso. apply Hn, in_or_app. right. apply H. left. reflexivity.
Qed.

Lemma filter_all : forall {A} f (l : list A), (forall x, In x l -> f x = true) -> filter f l = l.
Proof.
  induction l as [|x l IH]; intros H; [reflexivity|]. cbn. rewrite (H x) by (left; reflexivity).
  rewrite IH; [reflexivity|]. intros y Hy. apply H. right. exact Hy.
Qed.
Lemma filter_none : forall {A} f (l : list A), (forall x, In x l -> f x = false) -> filter f l = [].
Proof.
  induction l as [|x l IH]; intros H; [reflexivity|]. cbn. rewrite (H x) by (left; reflexivity).
  apply IH. intros y Hy. apply H. right. exact Hy.
Qed.

Lemma map_seq_split : forall {A} (E : nat -> A) c t n b rest, map E (seq c (t + n)) = b ++ rest -> length b = t ->
    map E (seq c t) = b /\ map E (seq (c + t) n) = rest.
Proof.
  intros A E c t n b rest H Hb. rewrite seq_app, map_app in H.
  assert (Hl : length (map E (seq c t)) = length b) by (rewrite map_length, seq_length; lia).
  split.
  - apply (f_equal (firstn (length b))) in H. rewrite !firstn_app_exact in H; [exact H|reflexivity|lia].
  - apply (f_equal (skipn (length b))) in H. rewrite !skipn_app_exact in H; [exact H|reflexivity|lia].
Qed.

Lemma Forall2_len : forall {A B} (P : A -> B -> Prop) l1 l2, Forall2 P l1 l2 -> length l1 = length l2.
Proof. intros A B P l1 l2 H. induction H; cbn; congruence. Qed.

(* ------------------------------------------------------------------ *)
(** ** tensordot, sdot, multidot_old *)

Lemma tensordot_ok : forall U V pre d post t, shape U = pre ++ d :: post -> shape V = d :: t ->
    exists T, tensordot U V (length pre) = Ok T /\ shape T = pre ++ post ++ t /\
      forall a c b, length a = length pre -> length c = length post ->
        at_ T (a ++ c ++ b) = rsum d (fun j => at_ U (a ++ j :: c) * at_ V (j :: b)).
Proof.
  intros U V pre d post t HU HV. unfold tensordot.
  assert (E : nth_error (shape U) (length pre) = Some d).
  { rewrite HU, nth_error_app2, Nat.sub_diag by lia. reflexivity. }
  rewrite E, HV, Nat.eqb_refl. eexists. split; [reflexivity|]. cbn [shape at_]. split.
  - rewrite HU. rewrite firstn_app_exact by reflexivity. f_equal.
    rewrite skipn_app. rewrite skipn_all2 by lia. replace (Datatypes.S (length pre) - length pre)%nat with 1%nat by lia.
    reflexivity.
  - intros a c b Ha Hc.
    assert (Hr : (length (shape U) - 1 = length (a ++ c))%nat).
    { rewrite HU, !app_length. cbn. lia. }
    rewrite Hr. rewrite app_assoc. apply rsum_ext. intros j _.
    rewrite (firstn_app_exact (a ++ c)) by reflexivity. rewrite (skipn_app_exact (a ++ c)) by reflexivity.
    rewrite firstn_app_exact by lia. rewrite skipn_app_exact by lia. reflexivity.
Qed.

Lemma multidot_loop_ok : forall Cs ten pre ds post,
    shape ten = pre ++ ds ++ post -> Forall2 (fun C d => exists t, shape C = d :: t) Cs ds ->
    exists T, multidot_loop ten Cs (length pre) = Ok T /\
      shape T = pre ++ post ++ concat (map (fun C => skipn 1 (shape C)) Cs) /\
      forall a c bs, length a = length pre -> length c = length post ->
        Forall2 (fun b C => valid b (skipn 1 (shape C))) bs Cs ->
        at_ T (a ++ c ++ concat bs) = msum ds (fun js => at_ ten (a ++ js ++ c) * entries Cs js bs).
Proof.
  induction Cs as [|C Cs IH]; intros ten pre ds post Hs HF; inversion HF as [|? d ? ds' Hd HF']; subst; cbn [multidot_loop].
  - exists ten. split; [reflexivity|]. split; [cbn; rewrite app_nil_r; exact Hs|].
    intros a c bs _ _ Hb. inversion Hb. subst. cbn. rewrite app_nil_r. ring.
  - destruct Hd as (t & Ht).
    destruct (tensordot_ok ten C pre d (ds' ++ post) t Hs Ht) as (T1 & E1 & S1 & V1).
    rewrite E1. cbn [bind].
    destruct (IH T1 pre ds' (post ++ t)) as (T & ET & ST & VT).
    { rewrite S1, !app_assoc. reflexivity. }
    { exact HF'. }
    exists T. split; [exact ET|]. split.
    + rewrite ST. cbn [map concat]. rewrite Ht. cbn [skipn]. rewrite !app_assoc. reflexivity.
    + intros a c bs Ha Hc Hb. inversion Hb as [|b ? bs' ? Hbv Hb']; subst. cbn [concat].
      rewrite Ht in Hbv. cbn [skipn] in Hbv. pose proof (valid_length _ _ Hbv) as Lb.
      replace (a ++ c ++ b ++ concat bs') with (a ++ (c ++ b) ++ concat bs') by (rewrite !app_assoc; reflexivity).
      rewrite VT; [|exact Ha|rewrite !app_length; lia|exact Hb'].
      cbn [msum entries].
      rewrite rsum_msum_swap. apply msum_ext. intros js Hjs.
      pose proof (valid_length _ _ Hjs) as Lj.
      replace (a ++ js ++ c ++ b) with (a ++ (js ++ c) ++ b) by (rewrite !app_assoc; reflexivity).
      rewrite V1 by (try exact Ha; rewrite !app_length; lia).
      rewrite <- rsum_scal_r. apply rsum_ext. intros j _. cbn [app]. ring.
Qed.

Lemma contraction_of_loop : forall M Cs kept ds T,
    fits M Cs kept ds -> multidot_loop M Cs (length kept) = Ok T -> contraction M Cs kept ds T.
Proof.
  intros M Cs kept ds T (HS & HF) E.
  destruct (multidot_loop_ok Cs M kept ds []) as (T' & E' & S' & V').
  { rewrite HS, app_nil_r. reflexivity. }
  { exact HF. }
  rewrite E in E'. injection E' as <-. split; [exact S'|].
  intros a bs Ha Hb. rewrite <- (app_nil_l (concat bs)).
  rewrite (V' a [] bs (valid_length _ _ Ha) eq_refl Hb).
  apply msum_ext. intros js _. rewrite app_nil_r. reflexivity.
Qed.

Lemma multidot_old_contracts : forall M Cs kept ds, fits M Cs kept ds ->
    exists T, multidot_old M Cs = Ok T /\ contraction M Cs kept ds T.
Proof.
  intros M Cs kept ds HF. pose proof HF as (HS & HFF).
  assert (L : length Cs = length ds) by (clear -HFF; induction HFF; cbn; congruence).
  destruct (multidot_loop_ok Cs M kept ds []) as (T & E & _).
  { rewrite HS, app_nil_r. reflexivity. }
  { exact HFF. }
  exists T. unfold multidot_old. rewrite HS, app_length.
  destruct (Nat.ltb_spec (length kept + length ds) (length Cs)); [lia|].
  replace (length kept + length ds - length Cs)%nat with (length kept) by lia.
  split; [exact E|]. apply contraction_of_loop; assumption.
Qed.

Lemma sdot_contracts : forall U V kept d t, shape U = kept ++ [d] -> shape V = d :: t ->
    exists T, sdot U V = Ok T /\ contraction U [V] kept [d] T.
Proof.
  intros U V kept d t HU HV.
  assert (HF : fits U [V] kept [d]) by (split; [exact HU|]; constructor; [exists t; exact HV|constructor]).
  destruct (tensordot_ok U V kept d [] t HU HV) as (T & E & _).
  exists T. unfold sdot. rewrite HU, app_length. cbn [length].
  destruct (Nat.eqb_spec (length kept + 1) 0); [lia|].
  replace (length kept + 1 - 1)%nat with (length kept) by lia. split; [exact E|].
  apply contraction_of_loop; [exact HF|]. cbn [multidot_loop]. rewrite E. reflexivity.
Qed.

Lemma sdot_mismatch : forall U V kept d d' t, shape U = kept ++ [d] -> shape V = d' :: t -> d <> d' ->
    sdot U V = Err ExcValue.
Proof.
  intros U V kept d d' t HU HV Hd. unfold sdot, tensordot. rewrite HU, app_length. cbn [length].
  destruct (Nat.eqb_spec (length kept + 1) 0); [lia|].
  replace (length kept + 1 - 1)%nat with (length kept) by lia.
  rewrite nth_error_app2, Nat.sub_diag by lia. cbn [nth_error]. rewrite HV.
  destruct (Nat.eqb_spec d d'); [contradiction|reflexivity].
Qed.

Lemma sdot_matrices : forall n m q A B,
    exists T, sdot (matrix_of n m A) (matrix_of m q B) = Ok T /\ shape T = [n; q] /\
      forall i j, (i < n)%nat -> (j < q)%nat -> at_ T [i; j] = rsum m (fun k => A i k * B k j).
Proof.
  intros n m q A B.
  destruct (sdot_contracts (matrix_of n m A) (matrix_of m q B) [n] m [q] eq_refl eq_refl) as (T & E & HS & HV).
  exists T. split; [exact E|]. split; [exact HS|]. intros i j Hi Hj.
  specialize (HV [i] [[j]]). cbn [app concat] in HV. rewrite HV.
  - cbn. apply rsum_ext. intros k _. ring.
  - repeat constructor. exact Hi.
  - repeat constructor. exact Hj.
Qed.

(* ------------------------------------------------------------------ *)
(** ** Labels of mdot *)

Fixpoint clab (f ic : nat) (ts : list nat) : list (list nat) :=
  match ts with [] => [] | t :: r => (f :: seq ic t) :: clab (Datatypes.S f) (ic + t) r end.

Definition tails (shapes : list (list nat)) : list nat := map (fun sh => (length sh - 1)%nat) shapes.
Definition nsum (l : list nat) : nat := fold_right Nat.add 0%nat l.

Lemma c_labels_clab : forall shapes f ic, c_labels (seq f (length shapes)) shapes ic = Ok (clab f ic (tails shapes)).
Proof.
  induction shapes as [|sh shapes IH]; intros f ic; [reflexivity|].
  cbn [length seq c_labels tails map clab]. rewrite IH. reflexivity.
Qed.

Lemma clab_out : forall ts f ic, concat (map (fun c => skipn 1 c) (clab f ic ts)) = seq ic (nsum ts).
Proof.
  induction ts as [|t ts IH]; intros f ic; [reflexivity|]. cbn [clab map concat skipn].
  rewrite IH. cbn [nsum fold_right]. rewrite seq_app. reflexivity.
Qed.

Lemma clab_in : forall ts f ic l, In l (concat (clab f ic ts)) <->
    (f <= l < f + length ts)%nat \/ (ic <= l < ic + nsum ts)%nat.
Proof.
  induction ts as [|t ts IH]; intros f ic l; cbn [clab concat length nsum fold_right]; [cbn; lia|].
  cbn [app In]. rewrite in_app_iff, in_seq, IH. fold (nsum ts). lia.
Qed.

Lemma clab_filter : forall g ts f ic,
    (forall i, (f <= i < f + length ts)%nat -> g i = true) -> (forall i, (ic <= i < ic + nsum ts)%nat -> g i = false) ->
    filter g (concat (clab f ic ts)) = seq f (length ts).
Proof.
  intros g. induction ts as [|t ts IH]; intros f ic H1 H2; [reflexivity|].
  cbn [clab concat length seq nsum fold_right] in *. fold (nsum ts) in *.
  cbn [app filter]. rewrite H1 by lia. f_equal. rewrite filter_app.
  rewrite (filter_none g (seq ic t)).
  - cbn. apply IH; intros i Hi; [apply H1|apply H2]; lia.
  - intros x Hx. apply in_seq in Hx. apply H2. lia.
Qed.

(** Sizes of the labels. *)
Lemma dim_of_consistent : forall ps l D d0, (d0 = 1%nat \/ d0 = D) ->
    (forall d, In (l, d) ps -> d = D) ->
    dim_of ps l d0 = Some d0 /\ ~ In (l, D) ps \/ dim_of ps l d0 = Some D.
Proof.
  induction ps as [|(l', d') ps IH]; intros l D d0 H0 H; cbn [dim_of].
  - left. split; [reflexivity|]. intros [].
  - destruct (Nat.eqb_spec l l') as [->|Hl].
    + right. assert (Hd : d' = D) by (apply H; left; reflexivity). subst d'.
      assert (HR : forall d, In (l', d) ps -> d = D) by (intros d Hd; apply H; right; exact Hd).
      destruct H0 as [->| ->].
      * destruct (Nat.eqb_spec D 1) as [->|Hne]; cbn [orb].
        -- destruct (IH l' 1%nat 1%nat (or_introl eq_refl) HR) as [(E & _)|E]; exact E.
        -- rewrite Nat.eqb_refl. destruct (IH l' D D (or_intror eq_refl) HR) as [(E & _)|E]; exact E.
      * rewrite Nat.eqb_refl. cbn [orb]. destruct (IH l' D D (or_intror eq_refl) HR) as [(E & _)|E]; exact E.
    + destruct (IH l D d0 H0 (fun d Hd => H d (or_intror Hd))) as [(E & Hn)|E]; [left|right; exact E].
      split; [exact E|]. intros [K|K]; [injection K as K1 K2; congruence|contradiction].
Qed.

Lemma dim_of_in : forall ps l D, (forall d, In (l, d) ps -> d = D) -> In (l, D) ps -> dim_of ps l 1 = Some D.
Proof.
  intros ps l D H Hin. destruct (dim_of_consistent ps l D 1 (or_introl eq_refl) H) as [(_ & Hn)|E]; [contradiction|exact E].
Qed.

Lemma dim_of_bound : forall ps l d0 D, dim_of ps l d0 = Some D ->
    (d0 = D \/ d0 = 1%nat) /\ forall d, In (l, d) ps -> d = D \/ d = 1%nat.
Proof.
  induction ps as [|(l', d') ps IH]; intros l d0 D H; cbn [dim_of] in H.
  - injection H as <-. split; [left; reflexivity|]. intros d [].
  - destruct (Nat.eqb_spec l l') as [->|Hl].
    + destruct (Nat.eqb_spec d' d0) as [->|Hd]; cbn [orb] in H.
      * destruct (IH _ _ _ H) as (A & B). split; [exact A|]. intros d [K|K]; [injection K as <-; exact A|exact (B d K)].
      * destruct (Nat.eqb_spec d' 1) as [->|Hd1].
        -- destruct (IH _ _ _ H) as (A & B). split; [exact A|].
           intros d [K|K]; [injection K as <-; right; reflexivity|exact (B d K)].
        -- destruct (Nat.eqb_spec d0 1) as [->|Hd0]; [|discriminate].
           destruct (IH _ _ _ H) as (A & B). split; [right; reflexivity|].
           intros d [K|K]; [injection K as <-; exact A|exact (B d K)].
    + destruct (IH _ _ _ H) as (A & B). split; [exact A|].
      intros d [K|K]; [injection K as K1 K2; congruence|exact (B d K)].
Qed.

Lemma dims_true : forall ps ls, (forall l, In l ls -> exists D, dim_of ps l 1 = Some D) -> dims ps ls = true.
Proof.
  induction ls as [|l ls IH]; intros H; [reflexivity|]. cbn [dims].
  destruct (H l (or_introl eq_refl)) as (D & ->). apply IH. intros x Hx. apply H. right. exact Hx.
Qed.

Lemma dims_some : forall ps ls l, dims ps ls = true -> In l ls -> exists D, dim_of ps l 1 = Some D.
Proof.
  induction ls as [|x ls IH]; intros l H Hin; [destruct Hin|]. cbn [dims] in H.
  destruct (dim_of ps x 1) as [D|] eqn:E; [|discriminate].
  destruct Hin as [->|Hin]; [exists D; exact E|exact (IH l H Hin)].
Qed.

(** Values of the labels. *)
Lemma envl_out : forall ls e vs x, ~ In x ls -> envl e ls vs x = e x.
Proof.
  induction ls as [|l ls IH]; intros e vs x H; [reflexivity|]. destruct vs as [|v vs]; [reflexivity|].
  cbn [envl]. rewrite IH by (intros K; apply H; right; exact K). unfold setl.
  destruct (Nat.eqb_spec x l) as [->|]; [exfalso; apply H; left; reflexivity|reflexivity].
Qed.

Lemma envl_map : forall ls e vs, NoDup ls -> length ls = length vs -> map (envl e ls vs) ls = vs.
Proof.
  induction ls as [|l ls IH]; intros e vs Hn Hl; destruct vs as [|v vs]; cbn in Hl; try lia; [reflexivity|].
  inversion Hn as [|? ? Hx Hn']; subst. cbn [map]. f_equal.
  - cbn [envl]. rewrite envl_out by exact Hx. unfold setl. rewrite Nat.eqb_refl. reflexivity.
  - cbn [envl]. apply IH; [exact Hn'|lia].
Qed.

Lemma sum_labels_msum : forall ls dim e f,
    sum_labels ls dim e f = msum (map dim ls) (fun js => f (envl e ls js)).
Proof.
  induction ls as [|l ls IH]; intros dim e f; [reflexivity|]. cbn [sum_labels map msum].
  apply rsum_ext. intros v _. rewrite IH. apply msum_ext. intros js _. reflexivity.
Qed.

Lemma clips_valid : forall sh idx, valid idx sh -> clips sh idx = idx.
Proof.
  intros sh idx H. induction H as [|i d idx sh Hi H IH]; [reflexivity|]. cbn [clips]. rewrite IH. f_equal.
  unfold clip. destruct (Nat.eqb_spec d 1); [lia|reflexivity].
Qed.

Lemma einsum_term_entries : forall Cs bs E f ic js,
    map E (seq f (length Cs)) = js ->
    map E (seq ic (nsum (tails (map shape Cs)))) = concat bs ->
    Forall2 (fun b C => valid b (skipn 1 (shape C))) bs Cs ->
    Forall2 (fun C j => exists d t, shape C = d :: t /\ (j < d)%nat) Cs js ->
    einsum_term (clab f ic (tails (map shape Cs))) Cs E = entries Cs js bs.
Proof.
  induction Cs as [|C Cs IH]; intros bs E f ic js HJ HB HV HD; inversion HV as [|b ? bs' ? Hb HV']; subst; [reflexivity|].
  cbn [tails map clab einsum_term entries length seq nsum fold_right concat] in *.
  inversion HD as [|? j ? js' (d & t & Hs & Hj) HD']; subst.
  fold (nsum (tails (map shape Cs))) in HB. fold (tails (map shape Cs)) in *.
  rewrite Hs in Hb, HB |- *. cbn [skipn length] in Hb, HB |- *.
  rewrite Nat.sub_succ, Nat.sub_0_r in HB |- *.
  pose proof (valid_length _ _ Hb) as Lb.
  destruct (map_seq_split E ic (length t) _ b (concat bs') HB Lb) as (H1 & H2).
  rewrite H1. rewrite clips_valid.
  - rewrite (IH bs' E (Datatypes.S f) (ic + length t)%nat (map E (seq (Datatypes.S f) (length Cs)))); [reflexivity|reflexivity|exact H2|exact HV'|exact HD'].
  - constructor; assumption.
Qed.

(* ------------------------------------------------------------------ *)
(** ** mdot *)

Lemma nth_seq_pairs : forall (l : list nat) c x d, In (x, d) (combine (seq c (length l)) l) -> d = nth (x - c) l 0%nat /\ (c <= x < c + length l)%nat.
Proof.
  induction l as [|y l IH]; intros c x d H; [destruct H|]. cbn [length seq combine] in H.
  destruct H as [H|H].
  - injection H as <- <-. rewrite Nat.sub_diag. cbn. lia.
  - apply IH in H. destruct H as (-> & Hx). split; [|cbn; lia].
    replace (x - c)%nat with (Datatypes.S (x - Datatypes.S c)) by lia. reflexivity.
Qed.

Lemma pairs_seq_nth : forall (l : list nat) c x, (c <= x < c + length l)%nat -> In (x, nth (x - c) l 0%nat) (combine (seq c (length l)) l).
Proof.
  induction l as [|y l IH]; intros c x H; cbn [length] in *; [lia|]. cbn [seq combine].
  destruct (Nat.eq_dec x c) as [->|Hne].
  - rewrite Nat.sub_diag. left. reflexivity.
  - right. replace (x - c)%nat with (Datatypes.S (x - Datatypes.S c)) by lia. cbn [nth]. apply IH. lia.
Qed.

(** Pairs (label, size) of the matrices. *)
Lemma clab_pairs : forall Cs ds f ic x d,
    Forall2 (fun C d => exists t, shape C = d :: t) Cs ds ->
    In (x, d) (combine (concat (clab f ic (tails (map shape Cs)))) (concat (map shape Cs))) ->
    In (x, d) (combine (seq f (length ds)) ds) \/
    In (x, d) (combine (seq ic (nsum (tails (map shape Cs)))) (concat (map (fun C => skipn 1 (shape C)) Cs))).
Proof.
  induction Cs as [|C Cs IH]; intros ds f ic x d HF H; [destruct H|].
  inversion HF as [|? d0 ? ds' (t & Ht) HF']; subst.
  cbn [map concat tails clab] in H. rewrite Ht in H.
  cbn [app length] in H. rewrite Nat.sub_succ, Nat.sub_0_r in H. cbn [combine] in H.
  cbn [length seq combine map concat tails nsum fold_right]. rewrite Ht. cbn [skipn length].
  rewrite Nat.sub_succ, Nat.sub_0_r. rewrite seq_app, combine_app by (rewrite seq_length; reflexivity).
  destruct H as [H|H]; [left; left; exact H|].
  rewrite combine_app in H by (rewrite seq_length; reflexivity).
  apply in_app_or in H. destruct H as [H|H].
  - right. apply in_or_app. left. exact H.
  - destruct (IH ds' (Datatypes.S f) (ic + length t)%nat x d HF' H) as [K|K].
    + left. right. exact K.
    + right. apply in_or_app. right. exact K.
Qed.

Lemma tails_length : forall Cs, nsum (tails (map shape Cs)) = fold_right (fun C n => (length (shape C) - 1) + n)%nat 0%nat Cs.
Proof. induction Cs as [|C Cs IH]; [reflexivity|]. cbn. f_equal. exact IH. Qed.

Lemma concat_tails_length : forall Cs (ds : list nat), Forall2 (fun C d => exists t, shape C = d :: t) Cs ds ->
    length (concat (map (fun C => skipn 1 (shape C)) Cs)) = nsum (tails (map shape Cs)).
Proof.
  intros Cs ds H. induction H as [|C d Cs ds (t & Ht) H IH]; [reflexivity|].
  cbn [map concat tails nsum fold_right]. rewrite app_length, IH.
  rewrite Ht at 1. change (skipn 1 (d :: t)) with t. rewrite Ht. cbn [length]. unfold tails, nsum. lia.
Qed.

Lemma clab_concat_length : forall Cs (ds : list nat) f ic, Forall2 (fun C d => exists t, shape C = d :: t) Cs ds ->
    length (concat (clab f ic (tails (map shape Cs)))) = length (concat (map shape Cs)).
Proof.
  intros Cs ds f ic H. revert f ic. induction H as [|C d Cs ds (t & Ht) H IH]; intros f ic; [reflexivity|].
  cbn [map tails clab concat]. rewrite !app_length. cbn [length]. rewrite seq_length.
  unfold tails in IH. rewrite IH. rewrite Ht. cbn [length]. lia.
Qed.

Lemma ranks_clab : forall Cs (ds : list nat) f ic, Forall2 (fun C d => exists t, shape C = d :: t) Cs ds ->
    length (clab f ic (tails (map shape Cs))) = length Cs /\
    forallb (fun p => Nat.eqb (length (fst p)) (length (shape (snd p)))) (combine (clab f ic (tails (map shape Cs))) Cs) = true.
Proof.
  intros Cs ds f ic H. revert f ic. induction H as [|C d Cs ds (t & Ht) H IH]; intros f ic; [split; reflexivity|].
  cbn [map tails clab length combine forallb fst snd]. destruct (IH (Datatypes.S f) (ic + (length (shape C) - 1))%nat) as (A & B).
  unfold tails in A, B. split; [rewrite A; reflexivity|]. rewrite B. rewrite Ht. cbn [length].
  rewrite seq_length, Nat.sub_succ, Nat.sub_0_r, Nat.eqb_refl. reflexivity.
Qed.

Lemma no_dup_NoDup : forall l, NoDup l -> no_dup l = true.
Proof.
  intros l H. induction H as [|x l Hx H IH]; [reflexivity|]. cbn. rewrite IH, andb_true_r.
  destruct (existsb (Nat.eqb x) l) eqn:E; [|reflexivity]. apply existsb_exists in E.
  destruct E as (y & Hy & Hxy). apply Nat.eqb_eq in Hxy. subst. contradiction.
Qed.

Lemma existsb_in : forall x l, existsb (Nat.eqb x) l = true <-> In x l.
Proof.
  intros x l. rewrite existsb_exists. split.
  - intros (y & Hy & E). apply Nat.eqb_eq in E. subst. exact Hy.
  - intros H. exists x. split; [exact H|apply Nat.eqb_refl].
Qed.

Lemma mdot_signature_ok : forall M Cs kept ds, fits M Cs kept ds -> (1 <= length Cs)%nat ->
    let p := length kept in let k := length ds in let n := nsum (tails (map shape Cs)) in
    mdot_signature (shape M) (map shape Cs) =
      Ok (seq 97 (p + k) :: clab (97 + p) (97 + p + k) (tails (map shape Cs)), seq 97 p ++ seq (97 + p + k) n).
Proof.
  intros M Cs kept ds (HS & HF) Hk p k n. unfold mdot_signature.
  assert (L : length Cs = k) by (unfold k; clear -HF; induction HF; cbn; congruence).
  rewrite map_length, L, HS, app_length. fold p k.
  destruct (Nat.eqb_spec k 0); [lia|].
  replace (p + k - k)%nat with p by lia.
  rewrite !seq_app. rewrite skipn_app_exact, firstn_app_exact by (rewrite seq_length; reflexivity).
  rewrite <- L at 1. rewrite <- (map_length shape Cs). rewrite c_labels_clab. cbn [bind].
  rewrite clab_out. rewrite <- seq_app. replace (97 + (p + k))%nat with (97 + p + k)%nat by lia. reflexivity.
Qed.

Lemma heads_valid : forall Cs ds js, Forall2 (fun C d => exists t, shape C = d :: t) Cs ds -> valid js ds ->
    Forall2 (fun C j => exists d t, shape C = d :: t /\ (j < d)%nat) Cs js.
Proof.
  intros Cs ds js H. revert js. induction H as [|C d Cs ds (t & Ht) H IH]; intros js Hjs; inversion Hjs; subst; constructor.
  - exists d, t. split; assumption.
  - apply IH. assumption.
Qed.

Lemma bs_length : forall bs Cs, Forall2 (fun b C => valid b (skipn 1 (shape C))) bs Cs ->
    length (concat bs) = length (concat (map (fun C => skipn 1 (shape C)) Cs)).
Proof.
  intros bs Cs H. induction H as [|b C bs Cs' Hv Hb IH]; [reflexivity|].
  cbn [concat map]. rewrite !app_length, IH. f_equal. apply valid_length, Hv.
Qed.

Section Mdot.
  Variables (M : nda) (Cs : list nda) (kept ds : list nat).
  Hypothesis HS : shape M = kept ++ ds.
  Hypothesis HF : Forall2 (fun C d => exists t, shape C = d :: t) Cs ds.
  Hypothesis Hk : (1 <= length Cs)%nat.
  Let p := length kept.
  Let k := length ds.
  Let n := nsum (tails (map shape Cs)).
  Let rest := concat (map (fun C => skipn 1 (shape C)) Cs).
  Let cl := clab (97 + p) (97 + p + k) (tails (map shape Cs)).
  Let labels := seq 97 (p + k) ++ concat cl.
  Let out := seq 97 p ++ seq (97 + p + k) n.
  Let ps := combine labels (shape M ++ concat (map shape Cs)).
  Let dim (l : nat) := match dim_of ps l 1 with Some d => d | None => 1%nat end.

  Lemma Lck : length Cs = k.
  Proof. exact (Forall2_len _ _ _ HF). Qed.
  Lemma Ltails : length (tails (map shape Cs)) = k.
  Proof. unfold tails. rewrite !map_length. exact Lck. Qed.
  Lemma Lrest : length rest = n.
  Proof. exact (concat_tails_length Cs ds HF). Qed.

  Let D (x : nat) : nat := if Nat.ltb x (97 + p + k) then nth (x - 97) (kept ++ ds) 0%nat else nth (x - (97 + p + k)) rest 0%nat.

  Lemma labels_in : forall l, In l labels <-> (97 <= l < 97 + p + k + n)%nat.
  Proof.
    intros l. unfold labels, cl. rewrite in_app_iff, in_seq, clab_in, Ltails. fold n. lia.
  Qed.

  Lemma ps_D : forall x d, In (x, d) ps -> d = D x.
  Proof.
    intros x d H. unfold ps, labels in H.
    assert (LM : length (shape M) = (p + k)%nat) by (rewrite HS, app_length; reflexivity).
    rewrite combine_app in H by (rewrite seq_length; lia).
    apply in_app_or in H. destruct H as [H|H].
    - rewrite <- LM in H. apply nth_seq_pairs in H. destruct H as (-> & Hx). rewrite LM in Hx.
      unfold D. destruct (Nat.ltb_spec x (97 + p + k)); [|lia]. rewrite HS. reflexivity.
    - apply (clab_pairs Cs ds) in H; [|exact HF]. fold k n rest in H. destruct H as [H|H].
      + apply nth_seq_pairs in H. destruct H as (-> & Hx). fold k in Hx. unfold D.
        destruct (Nat.ltb_spec x (97 + p + k)); [|lia].
        rewrite app_nth2 by (fold p; lia). f_equal. fold p. lia.
      + rewrite <- Lrest in H. apply nth_seq_pairs in H. destruct H as (-> & Hx). unfold D.
        destruct (Nat.ltb_spec x (97 + p + k)); [lia|reflexivity].
  Qed.

  Lemma labels_length : length labels = length (shape M ++ concat (map shape Cs)).
  Proof.
    unfold labels. rewrite !app_length, seq_length, HS, app_length. fold p k. f_equal.
    exact (clab_concat_length Cs ds _ _ HF).
  Qed.

  Lemma ps_has : forall x, In x labels -> exists d, In (x, d) ps.
  Proof.
    intros x Hx. unfold ps. pose proof labels_length as HL. revert HL.
    generalize (shape M ++ concat (map shape Cs)) as l2. revert Hx. generalize labels as l1. clear.
    induction l1 as [|y l1 IH]; intros Hx l2 HL; [destruct Hx|]. destruct l2 as [|z l2]; [discriminate|].
    cbn in HL. destruct Hx as [->|Hx]; [exists z; left; reflexivity|].
    destruct (IH Hx l2) as (d & Hd); [lia|]. exists d. right. exact Hd.
  Qed.

  Lemma dim_D : forall x, In x labels -> dim_of ps x 1 = Some (D x).
  Proof.
    intros x Hx. apply dim_of_in; [intros d Hd; apply ps_D, Hd|].
    destruct (ps_has x Hx) as (d & Hd). rewrite <- (ps_D x d Hd). exact Hd.
  Qed.

  Lemma map_nth_seq : forall (l : list nat) c, map (fun x => nth (x - c) l 0%nat) (seq c (length l)) = l.
  Proof.
    induction l as [|y l IH]; intros c; [reflexivity|]. cbn [length seq map]. rewrite Nat.sub_diag. cbn [nth]. f_equal.
    etransitivity; [|exact (IH (Datatypes.S c))]. apply map_ext_in. intros x Hx. apply in_seq in Hx.
    replace (x - c)%nat with (Datatypes.S (x - Datatypes.S c)) by lia. reflexivity.
  Qed.

  Lemma dim_seq_m : map dim (seq 97 (p + k)) = kept ++ ds.
  Proof.
    replace (p + k)%nat with (length (kept ++ ds)) by (rewrite app_length; reflexivity).
    etransitivity; [|exact (map_nth_seq (kept ++ ds) 97)]. apply map_ext_in. intros x Hx. apply in_seq in Hx.
    rewrite app_length in Hx. fold p k in Hx.
    unfold dim. rewrite dim_D by (apply labels_in; lia). unfold D. destruct (Nat.ltb_spec x (97 + p + k)); [reflexivity|lia].
  Qed.

  Lemma dim_seq_rest : map dim (seq (97 + p + k) n) = rest.
  Proof.
    rewrite <- Lrest. etransitivity; [|exact (map_nth_seq rest (97 + p + k))]. apply map_ext_in. intros x Hx. apply in_seq in Hx.
    rewrite Lrest in Hx.
    unfold dim. rewrite dim_D by (apply labels_in; lia). unfold D. destruct (Nat.ltb_spec x (97 + p + k)); [lia|reflexivity].
  Qed.

  Lemma out_NoDup : NoDup out.
  Proof.
    unfold out. clearbody n. induction n as [|n' IH].
    - cbn. rewrite app_nil_r. apply seq_NoDup.
    - rewrite seq_S, app_assoc. apply NoDup_rev in IH. apply NoDup_rev in IH. rewrite rev_involutive in IH.
      replace ((seq 97 p ++ seq (97 + p + k) n') ++ [(97 + p + k + n')%nat])
        with (rev ((97 + p + k + n')%nat :: rev (seq 97 p ++ seq (97 + p + k) n'))) by (cbn; rewrite rev_involutive; reflexivity).
      apply NoDup_rev. constructor.
      + rewrite <- in_rev, in_app_iff, !in_seq. lia.
      + apply NoDup_rev. exact IH.
  Qed.

  Lemma summed_eq : filter (fun l => negb (existsb (Nat.eqb l) out)) (nodup Nat.eq_dec labels) = seq (97 + p) k.
  Proof.
    set (g := fun l => negb (existsb (Nat.eqb l) out)).
    assert (Gt : forall i, (97 + p <= i < 97 + p + k)%nat -> g i = true).
    { intros i Hi. unfold g. destruct (existsb (Nat.eqb i) out) eqn:E; [|reflexivity].
      apply existsb_in in E. unfold out in E. rewrite in_app_iff, !in_seq in E. lia. }
    assert (Gf : forall i, (97 <= i < 97 + p)%nat \/ (97 + p + k <= i < 97 + p + k + n)%nat -> g i = false).
    { intros i Hi. unfold g. replace (existsb (Nat.eqb i) out) with true; [reflexivity|].
      symmetry. apply existsb_in. unfold out. rewrite in_app_iff, !in_seq. lia. }
    rewrite filter_nodup. unfold labels. rewrite filter_app. rewrite seq_app, filter_app.
    rewrite (filter_none g (seq 97 p)) by (intros x Hx; apply in_seq in Hx; apply Gf; lia).
    rewrite (filter_all g (seq (97 + p) k)) by (intros x Hx; apply in_seq in Hx; apply Gt; lia).
    unfold cl. rewrite clab_filter.
    - rewrite Ltails. cbn [app]. rewrite nodup_app_incl by (intros x Hx; exact Hx).
      apply nodup_fixed_point, seq_NoDup.
    - rewrite Ltails. exact Gt.
    - intros i Hi. apply Gf. right. exact Hi.
  Qed.

  Lemma mdot_cases : mdot M Cs =
    (if Nat.ltb 26 (p + k + n) then Err ExcValue
     else Ok (Nda (map dim out) (fun idx => sum_labels (seq (97 + p) k) dim (envl (fun _ => 0%nat) out idx) (einsum_term (seq 97 (p + k) :: cl) (M :: Cs))))).
  Proof.
    unfold mdot. rewrite (mdot_signature_ok M Cs kept ds (conj HS HF) Hk). cbn [bind fst snd].
    fold p k n cl out. unfold einsum.
    change (concat (seq 97 (p + k) :: cl)) with labels.
    change (concat (map shape (M :: Cs))) with (shape M ++ concat (map shape Cs)). fold ps.
    rewrite summed_eq. fold dim.
    destruct (Nat.ltb_spec 26 (p + k + n)) as [Hbig|Hsmall].
    - replace (forallb letter labels) with false; [reflexivity|]. symmetry.
      apply not_true_is_false. intros K. rewrite forallb_forall in K.
      specialize (K 123%nat). assert (In 123%nat labels) by (apply labels_in; lia). specialize (K H). discriminate K.
    - replace (forallb letter labels) with true.
      2:{ symmetry. apply forallb_forall. intros x Hx. apply labels_in in Hx. unfold letter.
          apply andb_true_intro. split; apply Nat.leb_le; lia. }
      cbn [negb].
      replace (ranks_ok (seq 97 (p + k) :: cl) (M :: Cs)) with true.
      2:{ symmetry. unfold ranks_ok. destruct (ranks_clab Cs ds (97 + p) (97 + p + k) HF) as (A & B). fold cl in A, B.
          cbn [length]. rewrite A, Nat.eqb_refl. cbn [andb combine forallb fst snd]. rewrite B, seq_length, HS, app_length.
          fold p k. rewrite Nat.eqb_refl. reflexivity. }
      cbn [negb]. rewrite (no_dup_NoDup _ out_NoDup). cbn [andb].
      replace (forallb (fun l => existsb (Nat.eqb l) labels) out) with true.
      2:{ symmetry. apply forallb_forall. intros x Hx. apply existsb_in, labels_in.
          unfold out in Hx. rewrite in_app_iff, !in_seq in Hx. lia. }
      cbn [negb]. rewrite (dims_true ps labels) by (intros l Hl; exists (D l); apply dim_D, Hl). reflexivity.
  Qed.

  Lemma mdot_too_many : (26 < p + k + n)%nat -> mdot M Cs = Err ExcValue.
  Proof. intros H. rewrite mdot_cases. destruct (Nat.ltb_spec 26 (p + k + n)); [reflexivity|lia]. Qed.

  Lemma mdot_value : (p + k + n <= 26)%nat -> exists T, mdot M Cs = Ok T /\ contraction M Cs kept ds T.
  Proof.
    intros H. rewrite mdot_cases. destruct (Nat.ltb_spec 26 (p + k + n)); [lia|].
    eexists. split; [reflexivity|]. split; cbn [shape at_].
    - unfold out. rewrite map_app, dim_seq_rest. f_equal.
      pose proof dim_seq_m as K. rewrite seq_app, map_app in K.
      apply (f_equal (firstn p)) in K. rewrite !firstn_app_exact in K; [exact K|reflexivity|rewrite map_length, seq_length; reflexivity].
    - intros a bs Ha Hb. rewrite sum_labels_msum.
      assert (Kd : map dim (seq (97 + p) k) = ds).
      { pose proof dim_seq_m as K. rewrite seq_app, map_app in K.
        apply (f_equal (skipn p)) in K. rewrite !skipn_app_exact in K; [exact K|reflexivity|rewrite map_length, seq_length; reflexivity]. }
      rewrite Kd. apply msum_ext. intros js Hjs.
      set (e0 := envl (fun _ => 0%nat) out (a ++ concat bs)).
      set (E := envl e0 (seq (97 + p) k) js).
      assert (La : length a = p) by (apply valid_length in Ha; exact Ha).
      assert (Lj : length js = k) by (apply valid_length in Hjs; exact Hjs).
      assert (Lb : length (concat bs) = n).
      { rewrite <- Lrest. exact (bs_length bs Cs Hb). }
      assert (Ee : map e0 out = a ++ concat bs).
      { apply envl_map; [apply out_NoDup|]. unfold out. rewrite !app_length, !seq_length. lia. }
      assert (EJ : map E (seq (97 + p) k) = js).
      { apply envl_map; [apply seq_NoDup|]. rewrite seq_length. lia. }
      assert (EE : forall x, ~ (97 + p <= x < 97 + p + k)%nat -> E x = e0 x).
      { intros x Hx. apply envl_out. rewrite in_seq. exact Hx. }
      unfold out in Ee. rewrite map_app in Ee.
      assert (E1 : map E (seq 97 p) = a).
      { rewrite (map_ext_in E e0) by (intros x Hx; apply in_seq in Hx; apply EE; lia).
        apply (f_equal (firstn p)) in Ee. rewrite !firstn_app_exact in Ee; [exact Ee|lia|rewrite map_length, seq_length; reflexivity]. }
      assert (E2 : map E (seq (97 + p + k) n) = concat bs).
      { rewrite (map_ext_in E e0) by (intros x Hx; apply in_seq in Hx; apply EE; lia).
        apply (f_equal (skipn p)) in Ee. rewrite !skipn_app_exact in Ee; [exact Ee|lia|rewrite map_length, seq_length; reflexivity]. }
      cbn [einsum_term]. f_equal.
      + rewrite seq_app, map_app, E1, EJ. rewrite clips_valid; [reflexivity|].
        rewrite HS. apply valid_app; assumption.
      + unfold cl. apply einsum_term_entries; [rewrite Lck; exact EJ|exact E2|exact Hb|].
        exact (heads_valid Cs ds js HF Hjs).
  Qed.
End Mdot.

Lemma mdot_contracts : forall M Cs kept ds, fits M Cs kept ds -> (1 <= length Cs)%nat -> (axes_named M Cs <= 26)%nat ->
    exists T, mdot M Cs = Ok T /\ contraction M Cs kept ds T.
Proof.
  intros M Cs kept ds (HS & HF) Hk Ha. apply mdot_value; try assumption.
  unfold axes_named in Ha. rewrite HS, app_length in Ha. rewrite tails_length. exact Ha.
Qed.

Lemma mdot_letters : forall M Cs kept ds, fits M Cs kept ds -> (1 <= length Cs)%nat -> (26 < axes_named M Cs)%nat ->
    mdot M Cs = Err ExcValue.
Proof.
  intros M Cs kept ds (HS & HF) Hk Ha. apply (mdot_too_many M Cs kept ds HS HF Hk).
  unfold axes_named in Ha. rewrite HS, app_length in Ha. rewrite tails_length. exact Ha.
Qed.

(** Sizes that do not match are refused, unless one of them is 1. *)
Lemma in_concat_pairs : forall {A B} (a1 : list A) (b1 : list B) a2 b2 x,
    length a1 = length b1 -> In x (combine a2 b2) -> In x (combine (a1 ++ a2) (b1 ++ b2)).
Proof. intros. rewrite combine_app by assumption. apply in_or_app. right. assumption. Qed.

Lemma clab_pair_head : forall shapes f ic i d t, nth_error shapes i = Some (d :: t) ->
    Forall (fun sh => sh <> []) shapes ->
    In ((f + i)%nat, d) (combine (concat (clab f ic (tails shapes))) (concat shapes)).
Proof.
  induction shapes as [|sh shapes IH]; intros f ic i d t H HN; [destruct i; discriminate|].
  inversion HN as [|? ? Hsh HN']; subst. destruct sh as [|d0 t0]; [contradiction|].
  cbn [tails map clab concat length]. rewrite Nat.sub_succ, Nat.sub_0_r. cbn [app combine].
  destruct i as [|i]; cbn in H.
  - injection H as -> ->. left. rewrite Nat.add_0_r. reflexivity.
  - right. apply in_concat_pairs; [apply seq_length|].
    replace (f + Datatypes.S i)%nat with (Datatypes.S f + i)%nat by lia. apply (IH _ _ _ d t); assumption.
Qed.

Lemma mdot_mismatch : forall M Cs kept ds i d d' t,
    shape M = kept ++ ds -> length Cs = length ds -> Forall (fun C => shape C <> []) Cs ->
    nth_error ds i = Some d -> nth_error (map shape Cs) i = Some (d' :: t) -> d <> d' -> d <> 1%nat -> d' <> 1%nat ->
    exists e, mdot M Cs = Err e.
Proof.
  intros M Cs kept ds i d d' t HS HL HN H1 H2 Hne Hd Hd'.
  assert (Hi : (i < length ds)%nat) by (apply nth_error_Some; congruence).
  unfold mdot, mdot_signature. rewrite map_length, HL, HS, app_length.
  destruct (Nat.eqb_spec (length ds) 0); [lia|].
  replace (length kept + length ds - length ds)%nat with (length kept) by lia.
  rewrite !seq_app. rewrite skipn_app_exact by (rewrite seq_length; reflexivity).
  assert (CL : forall f ic, c_labels (seq f (length ds)) (map shape Cs) ic = Ok (clab f ic (tails (map shape Cs)))).
  { intros f ic. rewrite <- HL, <- (map_length shape Cs). apply c_labels_clab. }
  rewrite CL. cbn [bind fst snd].
  rewrite <- seq_app. unfold einsum.
  destruct (negb (forallb letter _)); [eexists; reflexivity|].
  destruct (negb (ranks_ok _ _)); [eexists; reflexivity|].
  destruct (negb (no_dup _ && _)); [eexists; reflexivity|].
  match goal with |- context [dims ?P ?L] => set (ps := P); set (ls := L) end.
  destruct (dims ps ls) eqn:E; cbn [negb]; [|eexists; reflexivity]. exfalso.
  assert (A : In ((97 + length kept + i)%nat, d) ps).
  { unfold ps. cbn [concat map]. rewrite combine_app by (rewrite seq_length, HS, app_length; reflexivity).
    apply in_or_app. left. rewrite HS. rewrite <- app_length.
    replace d with (nth (97 + length kept + i - 97) (kept ++ ds) 0%nat).
    - apply pairs_seq_nth. rewrite app_length. lia.
    - rewrite app_nth2 by lia. replace (97 + length kept + i - 97 - length kept)%nat with i by lia.
      apply nth_error_nth. exact H1. }
  assert (B : In ((97 + length kept + i)%nat, d') ps).
  { unfold ps. cbn [concat map]. apply in_concat_pairs.
    - rewrite seq_length, HS, app_length. reflexivity.
    - apply (clab_pair_head _ _ _ _ d' t); [exact H2|]. clear -HN. induction HN; cbn; constructor; assumption. }
  assert (C : In (97 + length kept + i)%nat ls) by (apply in_combine_l in A; exact A).
  destruct (dims_some ps ls _ E C) as (D & HD). destruct (dim_of_bound _ _ _ _ HD) as (_ & K).
  destruct (K d A) as [->|]; [|contradiction]. destruct (K d' B) as [->|]; contradiction.
Qed.

(** Findings: an axis of size 1 is broadcast silently; without matrices everything is summed. *)
Lemma mdot_broadcast : exists T,
    mdot (matrix_of 1 2 (fun _ j => INR j + 1)) [matrix_of 1 1 (fun _ _ => 1)] = Ok T /\ shape T = [1%nat; 1%nat] /\ at_ T [0%nat; 0%nat] = 3.
Proof. eexists. split; [reflexivity|]. split; [reflexivity|]. cbn. lra. Qed.

Lemma mdot_nothing : exists T, mdot (Nda [2%nat] (fun _ => 1)) [] = Ok T /\ shape T = [] /\ at_ T [] = 2.
Proof. eexists. split; [reflexivity|]. split; [reflexivity|]. cbn. lra. Qed.

Lemma mdot_many : forall M Cs, (length (shape M) < length Cs)%nat -> mdot M Cs = Err ExcIndex.
Proof.
  intros M Cs H. unfold mdot, mdot_signature. rewrite map_length.
  destruct (Nat.eqb_spec (length Cs) 0); [lia|].
  replace (length (shape M) - length Cs)%nat with 0%nat by lia. cbn [skipn].
  assert (K : forall shapes fC ic, (length fC < length shapes)%nat -> c_labels fC shapes ic = Err ExcIndex).
  { induction shapes as [|sh shapes IH]; intros fC ic K; cbn in K; [lia|]. destruct fC as [|f fC]; [reflexivity|].
    cbn [c_labels]. rewrite IH by (cbn in K; lia). reflexivity. }
  rewrite K; [reflexivity|]. rewrite seq_length, map_length. exact H.
Qed.

(** ** multitake *)

Lemma nth_replace : forall {A} (l : list A) a x p d, (a < length l)%nat ->
    nth p (firstn a l ++ x :: skipn (S a) l) d = if Nat.eq_dec a p then x else nth p l d.
Proof.
  intros A l. induction l as [|y l IH]; intros a x p d H; cbn in H; [lia|].
  destruct a as [|a]; destruct p as [|p]; cbn [firstn app skipn nth]; try reflexivity.
  - rewrite IH by lia. destruct (Nat.eq_dec a p), (Nat.eq_dec (S a) (S p)); try reflexivity; lia.
Qed.
Lemma replace_length : forall {A} (l : list A) a x, (a < length l)%nat -> length (firstn a l ++ x :: skipn (S a) l) = length l.
Proof. intros A l a x H. rewrite app_length, firstn_length. cbn [length]. rewrite skipn_length. lia. Qed.

Lemma selection_none : forall axes inds p, ~ In p axes -> selection axes inds p = None.
Proof.
  induction axes as [|a axes IH]; intros [|i inds] p H; cbn; try reflexivity.
  destruct (Nat.eq_dec a p) as [E|E]; [elim H; left; exact E|]. apply IH. intros Hp. apply H. right. exact Hp.
Qed.

Lemma multitake_ok : forall inds a axes, NoDup axes -> length axes = length inds ->
    (forall p ind, selection axes inds p = Some ind -> (p < length (shape a))%nat /\ forall i, In i ind -> (i < nth p (shape a) 0)%nat) ->
    exists T, multitake a inds axes = Ok T /\ length (shape T) = length (shape a) /\
      (forall p, (p < length (shape a))%nat ->
         nth p (shape T) 0%nat = match selection axes inds p with Some ind => length ind | None => nth p (shape a) 0%nat end) /\
      forall idx, length idx = length (shape a) ->
        exists src, length src = length idx /\ at_ T idx = at_ a src /\
          forall p, (p < length idx)%nat ->
            nth p src 0%nat = match selection axes inds p with Some ind => nth (nth p idx 0%nat) ind 0%nat | None => nth p idx 0%nat end.
Proof.
  induction inds as [|ind inds IH]; intros a axes Hnd Hlen H.
  - exists a. destruct axes; [|discriminate]. cbn. split; [reflexivity|]. split; [reflexivity|]. split; [reflexivity|].
    intros idx _. exists idx. repeat split.
  - destruct axes as [|axe axes]; [discriminate|]. cbn [multitake].
    destruct (H axe ind) as (Hr & Hi); [cbn; destruct (Nat.eq_dec axe axe); congruence|].
    unfold take. rewrite (nth_error_nth' (shape a) 0%nat Hr).
    assert (Hb : forallb (fun i => Nat.ltb i (nth axe (shape a) 0%nat)) ind = true).
    { apply forallb_forall. intros i Hx. apply Nat.ltb_lt. apply Hi. exact Hx. }
    rewrite Hb. cbn [bind].
    match goal with |- context [multitake ?X inds axes] => set (a' := X) end.
    inversion Hnd as [|? ? Hni Hnd']; subst.
    assert (Hs : length (shape a') = length (shape a)) by (apply replace_length; exact Hr).
    destruct (IH a' axes Hnd' ltac:(cbn in Hlen; lia)) as (T & HT & HTl & HTs & HTv).
    { intros p ind' Hp. destruct (Nat.eq_dec axe p) as [->|Hne]; [rewrite selection_none in Hp by exact Hni; discriminate|].
      destruct (H p ind') as (H1 & H2); [cbn; destruct (Nat.eq_dec axe p); [contradiction|exact Hp]|].
      split; [rewrite Hs; exact H1|]. unfold a'. cbn [shape]. rewrite nth_replace by exact Hr.
      destruct (Nat.eq_dec axe p); [contradiction|]. exact H2. }
    exists T. split; [exact HT|]. split; [rewrite HTl; exact Hs|]. split.
    + intros p Hp. rewrite HTs by (rewrite Hs; exact Hp). unfold a'. cbn [shape selection]. rewrite nth_replace by exact Hr.
      destruct (Nat.eq_dec axe p) as [->|Hne]; [rewrite selection_none by exact Hni|]; reflexivity.
    + intros idx Hidx. destruct (HTv idx) as (src & Hsl & Hsv & Hsn); [rewrite Hs; exact Hidx|].
      exists (firstn axe src ++ nth (nth axe src 0%nat) ind 0%nat :: skipn (S axe) src).
      split; [rewrite replace_length by (rewrite Hsl, Hidx; exact Hr); exact Hsl|]. split; [exact Hsv|].
      intros p Hp. rewrite nth_replace by (rewrite Hsl, Hidx; exact Hr). cbn [selection].
      destruct (Nat.eq_dec axe p) as [->|Hne]; [|apply Hsn; exact Hp].
      rewrite Hsn by exact Hp. rewrite selection_none by exact Hni. reflexivity.
Qed.
