(** Proofs on caches. *)
From Coq Require Import String Reals List Arith ZArith Bool Lia Lra.
From Verif.Base Require Import Prelude.
From Verif.Model Require Import Caching.
From Verif.Spec Require Import Caching.
Import ListNotations.

Section PyvalInd.
  Variable P : pyval -> Prop.
  Hypothesis HNone : P VNone.
  Hypothesis HBool : forall b, P (VBool b).
  Hypothesis HInt : forall z, P (VInt z).
  Hypothesis HFloat : forall r, P (VFloat r).
  Hypothesis HStr : forall s, P (VStr s).
  Hypothesis HTuple : forall l, Forall P l -> P (VTuple l).
  Hypothesis HList : forall l, Forall P l -> P (VList l).
  Hypothesis HDict : forall l, Forall (fun p => P (fst p) /\ P (snd p)) l -> P (VDict l).
  Hypothesis HFrozen : forall l, Forall P l -> P (VFrozen l).
  Hypothesis HArray : forall sh d, P (VArray sh d).
  Hypothesis HObj : forall i, P (VObj i).
  Hypothesis HOpaque : forall i, P (VOpaque i).
  Hypothesis HErr : forall i, P (VTypeErr i).
  Fixpoint pyval_ind2 (v : pyval) : P v :=
    match v with
    | VNone => HNone
    | VBool b => HBool b
    | VInt z => HInt z
    | VFloat r => HFloat r
    | VStr s => HStr s
    | VTuple l => HTuple l ((fix go l : Forall P l := match l with [] => Forall_nil _ | x :: r => Forall_cons _ (pyval_ind2 x) (go r) end) l)
    | VList l => HList l ((fix go l : Forall P l := match l with [] => Forall_nil _ | x :: r => Forall_cons _ (pyval_ind2 x) (go r) end) l)
    | VFrozen l => HFrozen l ((fix go l : Forall P l := match l with [] => Forall_nil _ | x :: r => Forall_cons _ (pyval_ind2 x) (go r) end) l)
    | VDict l => HDict l ((fix go l : Forall (fun p => P (fst p) /\ P (snd p)) l :=
         match l with [] => Forall_nil _ | x :: r => Forall_cons _ (conj (pyval_ind2 (fst x)) (pyval_ind2 (snd x))) (go r) end) l)
    | VArray sh d => HArray sh d
    | VObj i => HObj i
    | VOpaque i => HOpaque i
    | VTypeErr i => HErr i
    end.
End PyvalInd.

Scheme same_ind2 := Minimality for same Sort Prop
  with same_seq_ind2 := Minimality for same_seq Sort Prop
  with same_bag_ind2 := Minimality for same_bag Sort Prop
  with same_items_ind2 := Minimality for same_items Sort Prop.
Combined Scheme same_mut from same_ind2, same_seq_ind2, same_bag_ind2, same_items_ind2.

(* ------------------------------------------------------------------ *)
(** ** hashable *)

Fixpoint hashable_items (addr : nat -> nat) (it : list (pyval * pyval)) : res (list pyval) :=
  match it with
  | [] => Ok []
  | (k, x) :: r => bind (hashable addr x) (fun hx => bind (hashable_items addr r) (fun hr => Ok (VTuple [k; hx] :: hr)))
  end.

Lemma hashable_list : forall addr l, hashable addr (VList l) = bind (hashable_all addr l) (fun l' => Ok (VTuple l')).
Proof.
  intros addr l. cbn [hashable]. f_equal. induction l as [|x l IH]; [reflexivity|]. cbn [hashable_all].
  destruct (hashable addr x) as [hx|e]; cbn [bind]; [|reflexivity]. rewrite IH. reflexivity.
Qed.
Lemma hashable_dict : forall addr l, hashable addr (VDict l) =
    bind (hashable_items addr l) (fun l' => if forallb can_hash l' then Ok (VFrozen l') else Err ExcType).
Proof.
  intros addr l. cbn [hashable]. f_equal. induction l as [|(k, x) l IH]; [reflexivity|]. cbn [hashable_items].
  destruct (hashable addr x) as [hx|e]; cbn [bind]; [|reflexivity]. rewrite IH. reflexivity.
Qed.

Lemma num_facts : forall a r, num_of a = Some r -> can_hash a = true /\ no_opaque a = true /\ forall addr, hashable addr a = Ok a.
Proof. intros a r H. destruct a; try discriminate; repeat split. Qed.

Lemma same_refl : forall v, same v v.
Proof.
  assert (SQ : forall l, Forall (fun v => same v v) l -> same_seq l l) by (induction 1; constructor; assumption).
  induction v using pyval_ind2.
  - constructor.
  - destruct b; eapply same_num; reflexivity.
  - eapply same_num; reflexivity.
  - eapply same_num; reflexivity.
  - constructor.
  - constructor. apply SQ. assumption.
  - constructor. apply SQ. assumption.
  - constructor. induction H as [|(k, x) l (Hk & Hx) Hl IH]; [constructor|]. apply (items_cons k k x x l [] l Hk Hx IH).
  - constructor. induction H as [|x l Hx Hl IH]; [constructor|]. apply (bag_cons x x l [] l Hx IH).
  - constructor.
  - constructor.
  - constructor.
  - constructor.
Qed.

Lemma same_can_hash_mut :
    (forall a b, same a b -> can_hash a = can_hash b) /\
    (forall l l', same_seq l l' -> forallb can_hash l = forallb can_hash l') /\
    (forall l l', same_bag l l' -> forallb can_hash l = forallb can_hash l') /\
    (forall l l', same_items l l' -> True).
Proof.
  apply same_mut; intros; cbn [can_hash forallb]; try reflexivity; try exact I.
  - destruct (num_facts a r H) as (-> & _). destruct (num_facts b r H0) as (-> & _). reflexivity.
  - exact H0.
  - congruence.
  - rewrite forallb_app in *. cbn [forallb]. rewrite H0, H2.
    destruct (can_hash y), (forallb can_hash l1), (forallb can_hash l2); reflexivity.
Qed.
Lemma same_can_hash : forall a b, same a b -> can_hash a = can_hash b.
Proof. exact (proj1 same_can_hash_mut). Qed.
Lemma bag_can_hash : forall l l', same_bag l l' -> forallb can_hash l = forallb can_hash l'.
Proof. exact (proj1 (proj2 (proj2 same_can_hash_mut))). Qed.

Definition rel {A} (Q : A -> A -> Prop) (x y : res A) : Prop :=
  match x, y with Ok a, Ok b => Q a b | Err _, Err _ => True | _, _ => False end.

Lemma hashable_items_app : forall addr l1 l2,
    hashable_items addr (l1 ++ l2) = bind (hashable_items addr l1) (fun a => bind (hashable_items addr l2) (fun b => Ok (a ++ b))).
Proof.
  intros addr l1 l2. induction l1 as [|(k, x) l1 IH]; cbn [app hashable_items bind].
  - destruct (hashable_items addr l2); reflexivity.
  - destruct (hashable addr x) as [hx|e]; cbn [bind]; [|reflexivity]. rewrite IH.
    destruct (hashable_items addr l1); cbn [bind]; [|reflexivity]. destruct (hashable_items addr l2); reflexivity.
Qed.

Lemma hashable_same_mut : forall addr addr',
    (forall a b, same a b -> no_opaque a = true -> rel same (hashable addr a) (hashable addr' b)) /\
    (forall l l', same_seq l l' -> forallb no_opaque l = true -> rel same_seq (hashable_all addr l) (hashable_all addr' l')) /\
    (forall l l', same_bag l l' -> True) /\
    (forall l l', same_items l l' -> forallb (fun p => no_opaque (fst p) && no_opaque (snd p)) l = true ->
        rel same_bag (hashable_items addr l) (hashable_items addr' l')).
Proof.
  intros addr addr'. apply same_mut.
  - intros _. constructor.
  - intros a b r Ha Hb _. destruct (num_facts a r Ha) as (_ & _ & ->). destruct (num_facts b r Hb) as (_ & _ & ->).
    cbn [rel]. exact (same_num a b r Ha Hb).
  - intros s _. constructor.
  - intros l l' H _ _. cbn [hashable rel]. constructor. exact H.
  - intros l l' _ IH HO. cbn [no_opaque] in HO. specialize (IH HO). rewrite !hashable_list.
    destruct (hashable_all addr l), (hashable_all addr' l'); cbn [bind rel] in *; try contradiction; [constructor; exact IH|exact I].
  - intros l l' _ IH HO. cbn [no_opaque] in HO. specialize (IH HO). rewrite !hashable_dict.
    destruct (hashable_items addr l) as [a|e], (hashable_items addr' l') as [b|e']; cbn [bind rel] in *; try contradiction; try exact I.
    rewrite (bag_can_hash _ _ IH). destruct (forallb can_hash b); cbn [rel]; [constructor; exact IH|exact I].
  - intros l l' H _ _. cbn [hashable rel]. constructor. exact H.
  - intros sh data _. cbn [hashable rel]. apply same_refl.
  - intros i _. constructor.
  - intros i HO. discriminate.
  - intros i _. constructor.
  - intros _. constructor.
  - intros x y l l' _ IHx _ IHl HO. cbn [forallb] in HO. apply andb_prop in HO. destruct HO as (HO1 & HO2).
    specialize (IHx HO1). specialize (IHl HO2). cbn [hashable_all].
    destruct (hashable addr x), (hashable addr' y); cbn [bind rel] in *; try contradiction; try exact I.
    destruct (hashable_all addr l), (hashable_all addr' l'); cbn [bind rel] in *; try contradiction; try exact I.
    constructor; assumption.
  - exact I.
  - intros. exact I.
  - intros _. constructor.
  - intros k k' x x' l l1 l2 Hk _ _ IHx _ IHl HO. cbn [forallb fst snd] in HO. apply andb_prop in HO. destruct HO as (HO1 & HO2).
    apply andb_prop in HO1. destruct HO1 as (_ & HO1). specialize (IHx HO1). specialize (IHl HO2).
    rewrite hashable_items_app in *. cbn [hashable_items].
    destruct (hashable addr x) as [hx|e], (hashable addr' x') as [hx'|e']; cbn [bind rel] in *; try contradiction.
    + destruct (hashable_items addr l), (hashable_items addr' l1), (hashable_items addr' l2); cbn [bind rel] in *; try contradiction; try exact I.
      constructor; [|exact IHl]. constructor. constructor; [exact Hk|]. constructor; [exact IHx|constructor].
    + destruct (hashable_items addr' l1); exact I.
Qed.

Lemma hashable_same : forall addr addr' a b ka, same a b -> no_opaque a = true -> hashable addr a = Ok ka ->
    exists kb, hashable addr' b = Ok kb /\ same ka kb.
Proof.
  intros addr addr' a b ka HS HO H. pose proof (proj1 (hashable_same_mut addr addr') a b HS HO) as K. rewrite H in K.
  destruct (hashable addr' b) as [kb|e]; [exists kb; split; [reflexivity|exact K]|contradiction].
Qed.

Lemma hashable_can_hash : forall addr v k, hashable_parts v = true -> hashable addr v = Ok k -> can_hash k = true.
Proof.
  intros addr. induction v using pyval_ind2; intros kk HP HK; try (cbn in HK; injection HK as <-; reflexivity).
  - cbn in HK. injection HK as <-. exact HP.
  - rewrite hashable_list in HK. destruct (hashable_all addr l) as [l'|e] eqn:E; cbn [bind] in HK; [|discriminate].
    injection HK as <-. cbn [can_hash hashable_parts] in *. revert l' E HP. induction H as [|x l Hx Hl IH]; intros l' E HP.
    + injection E as <-. reflexivity.
    + cbn [hashable_all] in E. cbn [forallb] in HP. apply andb_prop in HP. destruct HP as (P1 & P2).
      destruct (hashable addr x) as [hx|e] eqn:Ex; cbn [bind] in E; [|discriminate].
      destruct (hashable_all addr l) as [hl|e] eqn:El; cbn [bind] in E; [|discriminate]. injection E as <-.
      cbn [forallb]. rewrite (Hx hx P1 eq_refl), (IH hl eq_refl P2). reflexivity.
  - rewrite hashable_dict in HK. destruct (hashable_items addr l) as [l'|e] eqn:E; cbn [bind] in HK; [|discriminate].
    destruct (forallb can_hash l'); [|discriminate]. injection HK as <-. reflexivity.
  - cbn in HK. injection HK as <-. cbn [can_hash]. induction d as [|r d IH]; [reflexivity|exact (IH eq_refl)].
Qed.

(** [hashable] never fails on such values. *)
Lemma hashable_total : forall addr v, hashable_parts v = true -> exists k, hashable addr v = Ok k.
Proof.
  intros addr. induction v using pyval_ind2; intros HP; try (eexists; reflexivity).
  - rewrite hashable_list. cbn [hashable_parts] in HP. assert (K : exists l', hashable_all addr l = Ok l').
    { induction H as [|x l Hx Hl IH]; [eexists; reflexivity|]. cbn [forallb] in HP. apply andb_prop in HP. destruct HP as (P1 & P2).
      cbn [hashable_all]. destruct (Hx P1) as (hx & ->). destruct (IH P2) as (hl & ->). eexists. reflexivity. }
    destruct K as (l' & ->). eexists. reflexivity.
  - rewrite hashable_dict. cbn [hashable_parts] in HP. assert (K : exists l', hashable_items addr l = Ok l' /\ forallb can_hash l' = true).
    { induction H as [|(k, x) l (Hk & Hx) Hl IH]; [eexists; split; reflexivity|]. cbn [forallb fst snd] in HP, Hk, Hx. apply andb_prop in HP. destruct HP as (P1 & P2).
      apply andb_prop in P1. destruct P1 as (P0 & P1). cbn [hashable_items]. destruct (Hx P1) as (hx & Ex). rewrite Ex. destruct (IH P2) as (hl & -> & C).
      eexists. split; [reflexivity|]. cbn [forallb can_hash]. rewrite P0, C, (hashable_can_hash addr x hx P1 Ex). reflexivity. }
    destruct K as (l' & -> & C). cbn [bind]. rewrite C. eexists. reflexivity.
Qed.

(* ------------------------------------------------------------------ *)
(** ** memoized *)

Lemma memo_run_nth : forall {V} hash (f : call_args -> res V) calls cache (all : list ((nat -> nat) * call_args)),
    incl calls all -> no_clash hash f all ->
    (forall h v, cache h = Some v -> exists c, In c all /\ cache_key hash (fst c) (snd c) = Ok h /\ f (snd c) = Ok v) ->
    forall i addr a, nth_error calls i = Some (addr, a) ->
      exists ev, nth_error (fst (memo_run hash f calls cache)) i =
        Some (match cache_key hash addr a with Ok _ => f a | Err e => Err e end, ev).
Proof.
  intros V hash f. induction calls as [|(addr0, a0) calls IH]; intros cache all HI HN HC i addr a Hi; [destruct i; discriminate|].
  assert (IN0 : In (addr0, a0) all) by (apply HI; left; reflexivity).
  assert (HI' : incl calls all) by (intros x Hx; apply HI; right; exact Hx).
  cbn [memo_run]. unfold memo_call. destruct (cache_key hash addr0 a0) as [h|e] eqn:E.
  - destruct (cache h) as [v|] eqn:C.
    + specialize (IH cache all HI' HN HC). destruct (memo_run hash f calls cache) as [vs c''] eqn:R. cbn [fst]. destruct i as [|i]; cbn in Hi.
      * injection Hi as <- <-. exists false. rewrite E. cbn [nth_error]. destruct (HC h v C) as (c & Hc & Kc & Fc).
        rewrite <- Fc. rewrite (HN c (addr0, a0) h Hc IN0 Kc E). reflexivity.
      * exact (IH i addr a Hi).
    + destruct (f a0) as [v|e] eqn:F.
      * specialize (IH (fun k => if Z.eqb k h then Some v else cache k) all HI' HN). destruct (memo_run hash f calls _) as [vs c''] eqn:R. cbn [fst].
        destruct i as [|i]; cbn in Hi.
        -- injection Hi as <- <-. exists true. rewrite E. cbn [nth_error]. rewrite F. reflexivity.
        -- apply IH; [|exact Hi]. intros k w Hk. destruct (Z.eqb_spec k h) as [->|]; [|exact (HC k w Hk)].
           injection Hk as <-. exists (addr0, a0). repeat split; assumption.
      * specialize (IH cache all HI' HN HC). destruct (memo_run hash f calls cache) as [vs c''] eqn:R. cbn [fst]. destruct i as [|i]; cbn in Hi.
        -- injection Hi as <- <-. exists true. rewrite E. cbn [nth_error]. rewrite F. reflexivity.
        -- exact (IH i addr a Hi).
  - specialize (IH cache all HI' HN HC). destruct (memo_run hash f calls cache) as [vs c''] eqn:R. cbn [fst]. destruct i as [|i]; cbn in Hi.
    + injection Hi as <- <-. exists false. rewrite E. reflexivity.
    + exact (IH i addr a Hi).
Qed.

Lemma memo_correct : forall {V} hash (f : call_args -> res V) calls, no_clash hash f calls ->
    forall i addr a h, nth_error calls i = Some (addr, a) -> cache_key hash addr a = Ok h ->
      exists ev, nth_error (fst (memo_run hash f calls (fun _ => None))) i = Some (f a, ev).
Proof.
  intros V hash f calls HN i addr a h Hi HK.
  destruct (memo_run_nth hash f calls (fun _ => None) calls (incl_refl _) HN ltac:(discriminate) i addr a Hi) as (ev & E).
  rewrite HK in E. exists ev. exact E.
Qed.

Lemma memo_raises : forall {V} hash (f : call_args -> res V) calls e,
    forall i addr a, nth_error calls i = Some (addr, a) -> cache_key hash addr a = Err e ->
      nth_error (fst (memo_run hash f calls (fun _ => None))) i = Some (Err e, false).
Proof.
  intros V hash f calls e. generalize (fun _ : Z => @None V) as cache. induction calls as [|(addr0, a0) calls IH]; intros cache i addr a Hi HK; [destruct i; discriminate|].
  cbn [memo_run]. unfold memo_call. destruct i as [|i]; cbn in Hi.
  - injection Hi as <- <-. rewrite HK. destruct (memo_run hash f calls cache). reflexivity.
  - destruct (cache_key hash addr0 a0) as [h|e0] eqn:E; [destruct (cache h) as [v|] eqn:C; [|destruct (f a0) as [v|e0] eqn:F]|];
      match goal with |- context [memo_run hash f calls ?c] => specialize (IH c i addr a Hi HK); destruct (memo_run hash f calls c) end; exact IH.
Qed.

Lemma memo_cached : forall {V} hash (f : call_args -> res V) calls cache h v,
    cache h = Some v -> forall j addr a, nth_error calls j = Some (addr, a) -> cache_key hash addr a = Ok h ->
      nth_error (fst (memo_run hash f calls cache)) j = Some (Ok v, false).
Proof.
  intros V hash f. induction calls as [|(addr0, a0) calls IH]; intros cache h v HC j addr a Hj HK; [destruct j; discriminate|].
  cbn [memo_run]. unfold memo_call. destruct j as [|j]; cbn in Hj.
  - injection Hj as <- <-. rewrite HK, HC. destruct (memo_run hash f calls cache). reflexivity.
  - destruct (cache_key hash addr0 a0) as [h0|e0] eqn:E; [destruct (cache h0) as [v0|] eqn:C; [|destruct (f a0) as [v0|e0] eqn:F]|].
    + specialize (IH cache h v HC j addr a Hj HK). destruct (memo_run hash f calls cache). exact IH.
    + specialize (IH (fun k => if Z.eqb k h0 then Some v0 else cache k) h v). destruct (memo_run hash f calls _). apply (IH ltac:(destruct (Z.eqb_spec h h0); [congruence|exact HC]) j addr a Hj HK).
    + specialize (IH cache h v HC j addr a Hj HK). destruct (memo_run hash f calls cache). exact IH.
    + specialize (IH cache h v HC j addr a Hj HK). destruct (memo_run hash f calls cache). exact IH.
Qed.

(** After a successful call, calls with the same key are answered without evaluating [f]. *)
Lemma memo_once : forall {V} hash (f : call_args -> res V) calls i j addri ai addrj aj h v ev,
    (i < j)%nat -> nth_error calls i = Some (addri, ai) -> nth_error calls j = Some (addrj, aj) ->
    cache_key hash addri ai = Ok h -> cache_key hash addrj aj = Ok h ->
    nth_error (fst (memo_run hash f calls (fun _ => None))) i = Some (Ok v, ev) ->
    nth_error (fst (memo_run hash f calls (fun _ => None))) j = Some (Ok v, false).
Proof.
  intros V hash f calls i j addri ai addrj aj h v ev. generalize (fun _ : Z => @None V) as cache.
  revert i j. induction calls as [|(addr0, a0) calls IH]; intros i j cache Hij Hi Hj Ki Kj R; [destruct i; discriminate|].
  destruct j as [|j]; [lia|]. cbn [memo_run] in *. unfold memo_call in *. destruct i as [|i]; cbn in Hi, Hj.
  - injection Hi as -> ->. rewrite Ki in *. destruct (cache h) as [v0|] eqn:C; [|destruct (f ai) as [v0|e0] eqn:F].
    + pose proof (memo_cached hash f calls cache h v0 C j addrj aj Hj Kj) as K. destruct (memo_run hash f calls cache).
      cbn [fst nth_error] in *. injection R as <- _. exact K.
    + pose proof (memo_cached hash f calls (fun k => if Z.eqb k h then Some v0 else cache k) h v0 ltac:(cbv beta; rewrite Z.eqb_refl; reflexivity) j addrj aj Hj Kj) as K.
      destruct (memo_run hash f calls _). cbn [fst nth_error] in *. injection R as <- _. exact K.
    + destruct (memo_run hash f calls cache). cbn [fst nth_error] in R. discriminate.
  - destruct (cache_key hash addr0 a0) as [h0|e0] eqn:E; [destruct (cache h0) as [v0|] eqn:C; [|destruct (f a0) as [v0|e0] eqn:F]|];
      match goal with |- context [memo_run hash f calls ?c] => specialize (IH i j c ltac:(lia) Hi Hj Ki Kj); destruct (memo_run hash f calls c) end; exact (IH R).
Qed.

(** Plain positional arguments: the key determines the arguments. *)
Lemma plain_hashable : forall addr l, forallb plain l = true -> hashable_all addr l = Ok l.
Proof.
  intros addr l. induction l as [|x l IH]; intros H; [reflexivity|]. cbn [forallb] in H. apply andb_prop in H. destruct H as (H1 & H2).
  cbn [hashable_all]. assert (E : hashable addr x = Ok x) by (destruct x; try discriminate; reflexivity). rewrite E, (IH H2). reflexivity.
Qed.

Lemma plain_same : forall a, plain a = true -> forall b, plain b = true -> same a b -> a = b.
Proof.
  induction a using pyval_ind2; intros HP bb HB HS; try discriminate; inversion HS; subst; try discriminate; try reflexivity.
  - destruct bb; try discriminate. cbn in H, H0. injection H as <-. injection H0 as H0. apply eq_IZR in H0. congruence.
  - f_equal. cbn [plain] in HP, HB. match goal with K : same_seq _ _ |- _ => revert K end. revert l' HB HS. induction H as [|x l Hx Hl IH]; intros l' HB HS K; inversion K; subst; [reflexivity|].
    cbn [forallb] in HP, HB. apply andb_prop in HP. apply andb_prop in HB. destruct HP, HB. f_equal; [apply Hx; assumption|]. apply IH; try assumption. constructor. assumption.
Qed.

Lemma plain_can_hash : forall a, plain a = true -> can_hash a = true.
Proof.
  induction a using pyval_ind2; intros HP; try discriminate; try reflexivity. cbn [plain can_hash] in *.
  induction H as [|x l Hx Hl IH]; [reflexivity|]. cbn [forallb] in *. apply andb_prop in HP. destruct HP. rewrite Hx, IH by assumption. reflexivity.
Qed.

Lemma memo_plain_key : forall hash addr l, forallb plain l = true -> cache_key hash addr (l, []) = Ok (hash (VTuple [VTuple l; VFrozen []])).
Proof.
  intros hash addr l H. unfold cache_key, cache_tuple. cbn [fst snd]. rewrite (plain_hashable addr l H). cbn [bind]. unfold kwargs_dict. cbn [map].
  rewrite hashable_dict. cbn [hashable_items bind forallb can_hash].
  assert (K : forallb can_hash l = true).
  { apply forallb_forall. intros x Hx. apply plain_can_hash. rewrite forallb_forall in H. exact (H x Hx). }
  rewrite K. reflexivity.
Qed.

Lemma memo_plain : forall {V} hash (f : call_args -> res V) calls,
    (forall c, In c calls -> forallb plain (fst (snd c)) = true /\ snd (snd c) = []) ->
    (forall c1 c2, In c1 calls -> In c2 calls ->
       hash (VTuple [VTuple (fst (snd c1)); VFrozen []]) = hash (VTuple [VTuple (fst (snd c2)); VFrozen []]) ->
       same (VTuple (fst (snd c1))) (VTuple (fst (snd c2)))) ->
    no_clash hash f calls.
Proof.
  intros V hash f calls HP HI c1 c2 h H1 H2 K1 K2. destruct (HP c1 H1) as (P1 & E1). destruct (HP c2 H2) as (P2 & E2).
  destruct c1 as (ad1 & (l1 & k1)), c2 as (ad2 & (l2 & k2)). cbn [fst snd] in *. subst k1 k2.
  rewrite memo_plain_key in K1, K2 by assumption. injection K1 as K1. injection K2 as K2.
  specialize (HI _ _ H1 H2). cbn [fst snd] in HI. specialize (HI ltac:(congruence)).
  pose proof (plain_same (VTuple l1) P1 (VTuple l2) P2 HI) as Q. injection Q as ->. reflexivity.
Qed.

(** Clashes. *)
Lemma memo_collision : forall (hash : pyval -> Z) (g : list Z -> Z) addr1 addr2,
    (forall l, hash (VTuple l) = g (map hash l)) -> hash (VInt (-1)) = hash (VInt (-2)) ->
    fst (memo_run hash (fun a => Ok (nth 0 (fst a) VNone)) [(addr1, ([VInt (-1)], [])); (addr2, ([VInt (-2)], []))] (fun _ => None))
    = [(Ok (VInt (-1)), true); (Ok (VInt (-1)), false)].
Proof.
  intros hash g addr1 addr2 HT HC. cbn [memo_run]. unfold memo_call. rewrite !memo_plain_key by reflexivity.
  cbn [fst snd nth]. assert (E : hash (VTuple [VTuple [VInt (-2)]; VFrozen []]) = hash (VTuple [VTuple [VInt (-1)]; VFrozen []])).
  { rewrite !HT. cbn [map]. rewrite !HT. cbn [map]. rewrite HC. reflexivity. }
  rewrite E, Z.eqb_refl. reflexivity.
Qed.

Lemma key_same : forall hash addr addr' a b ka kb, respects_equality hash ->
    hashable addr a = Ok ka -> hashable addr' b = Ok kb -> same ka kb -> can_hash ka = true ->
    cache_key hash addr ([a], []) = cache_key hash addr' ([b], []) /\ exists h, cache_key hash addr ([a], []) = Ok h.
Proof.
  intros hash addr addr' a b ka kb HR Ha Hb HS HC. unfold cache_key, cache_tuple. cbn [fst snd hashable_all]. rewrite Ha, Hb. cbn [bind]. unfold kwargs_dict. cbn [map].
  rewrite !hashable_dict. cbn [hashable_items bind forallb can_hash]. rewrite <- (same_can_hash _ _ HS), HC. cbn [andb].
  assert (E : hash (VTuple [VTuple [ka]; VFrozen []]) = hash (VTuple [VTuple [kb]; VFrozen []])).
  { apply HR; [cbn [can_hash forallb]; rewrite HC; reflexivity|]. constructor. constructor; [|constructor; [apply same_refl|constructor]].
    constructor. constructor; [exact HS|constructor]. }
  rewrite E. split; [reflexivity|eexists; reflexivity].
Qed.

Lemma memo_shared : forall hash addr1 addr2 a b ka kb, respects_equality hash ->
    hashable addr1 a = Ok ka -> hashable addr2 b = Ok kb -> same ka kb -> can_hash ka = true ->
    fst (memo_run hash (fun x => Ok (nth 0 (fst x) VNone)) [(addr1, ([a], [])); (addr2, ([b], []))] (fun _ => None))
    = [(Ok a, true); (Ok a, false)].
Proof.
  intros hash addr1 addr2 a b ka kb HR Ha Hb HS HC. destruct (key_same hash addr1 addr2 a b ka kb HR Ha Hb HS HC) as (E & (h & K)).
  cbn [memo_run]. unfold memo_call. rewrite <- E, K. cbn [fst nth]. rewrite Z.eqb_refl. reflexivity.
Qed.

Lemma respects_example : respects_equality (fun _ => 0%Z).
Proof. intros a b _ _. reflexivity. Qed.

Lemma tuple_of_list_key : forall hash addr l kw, cache_key hash addr ([VTuple [VList l]], kw) = Err ExcType.
Proof.
  intros hash addr l kw. unfold cache_key, cache_tuple. cbn [fst snd hashable_all hashable bind].
  unfold kwargs_dict. rewrite hashable_dict. destruct (hashable_items addr _) as [it|e] eqn:E; cbn [bind].
  - destruct (forallb can_hash it); cbn [bind can_hash forallb andb]; reflexivity.
  - clear -E. f_equal. revert e E. induction kw as [|(s, x) kw IH]; intros e E; cbn in E; [discriminate|].
    assert (HX : forall v e', hashable addr v = Err e' -> e' = ExcType).
    { clear. induction v using pyval_ind2; intros e' Hv; try discriminate.
      - rewrite hashable_list in Hv. destruct (hashable_all addr l) as [l'|e0] eqn:E; [discriminate|]. cbn in Hv. injection Hv as ->.
        revert E. induction H as [|x l Hx Hl IH]; intros E; [discriminate|]. cbn in E. destruct (hashable addr x) as [hx|e1] eqn:Ex; cbn in E.
        + destruct (hashable_all addr l) as [hl|e1]; [discriminate|]. cbn in E. injection E as ->. apply IH. reflexivity.
        + injection E as ->. apply Hx. reflexivity.
      - rewrite hashable_dict in Hv. destruct (hashable_items addr l) as [l'|e0] eqn:E; cbn in Hv.
        + destruct (forallb can_hash l'); [discriminate|]. injection Hv as <-. reflexivity.
        + injection Hv as ->. revert E. induction H as [|(k, x) l (_ & Hx) Hl IH]; intros E; [discriminate|]. cbn in E, Hx. destruct (hashable addr x) as [hx|e1] eqn:Ex; cbn in E.
          * destruct (hashable_items addr l) as [hl|e1]; [discriminate|]. cbn in E. injection E as ->. apply IH. reflexivity.
          * injection E as ->. apply Hx. reflexivity. }
    destruct (hashable addr x) as [hx|e1] eqn:Ex; cbn in E.
    + destruct (hashable_items addr _) as [hl|e1] eqn:El; cbn in E; [discriminate|]. injection E as ->. apply IH. reflexivity.
    + injection E as <-. apply (HX x). exact Ex.
Qed.

(* ------------------------------------------------------------------ *)
(** ** cachedondisk *)

Section Disk.
  Context {V : Type}.
  Variable is_none picklable : V -> bool.

  (** Calls which share a function name and a key have the same value. *)
  Definition consistent (evs : list (@disk_event V)) : Prop :=
    forall n f1 h1 d1 a1 c1 f2 h2 d2 a2 c2 h,
      In (ECall n f1 h1 d1 a1 c1) evs -> In (ECall n f2 h2 d2 a2 c2) evs ->
      cache_key h1 d1 a1 = Ok h -> cache_key h2 d2 a2 = Ok h -> f1 a1 = f2 a2.

  (** No process dies while writing, and every value written can be pickled. *)
  Definition complete_writes (evs : list (@disk_event V)) : Prop :=
    forall n f h d a c, In (ECall n f h d a c) evs -> c <> CrashDuring /\ forall v, f a = Ok v -> picklable v = true.

  Definition good (all : list (@disk_event V)) (d : disk V) : Prop :=
    forall n h, match d n h with
                | None => True
                | Some Partial => False
                | Some (Complete v) => forall f hs ad a c, In (ECall n f hs ad a c) all -> cache_key hs ad a = Ok h -> f a = Ok v
                end.

  Lemma disk_run_correct : forall evs all d, incl evs all -> consistent all -> complete_writes all -> good all d ->
      good all (snd (disk_run is_none picklable evs d)) /\
      forall i n f hs ad a c h r, nth_error evs i = Some (ECall n f hs ad a c) -> cache_key hs ad a = Ok h ->
        nth_error (fst (disk_run is_none picklable evs d)) i = Some (Some r) -> r = f a.
  Proof.
    induction evs as [|e evs IH]; intros all d HI HC HW HG.
    - split; [exact HG|]. intros i n f hs ad a c h r Hi. destruct i; discriminate.
    - assert (HI' : incl evs all) by (intros x Hx; apply HI; right; exact Hx).
      destruct e as [n f hs ad a c|nm]; cbn [disk_run].
      + assert (IN0 : In (ECall n f hs ad a c) all) by (apply HI; left; reflexivity).
        destruct (disk_call is_none picklable n f hs ad a c d) as [v d'] eqn:E.
        assert (K : good all d' /\ forall h r, cache_key hs ad a = Ok h -> v = Some r -> r = f a).
        { unfold disk_call in E. destruct (cache_key hs ad a) as [h|e] eqn:EK; [|injection E as <- <-; split; [exact HG|intros; discriminate]].
          pose proof (HG n h) as Hh. destruct (d n h) as [[w|]|] eqn:ED; [|contradiction|].
          - injection E as <- <-. split; [exact HG|]. intros h' r _ Hr. injection Hr as <-. symmetry. exact (Hh f hs ad a c IN0 EK).
          - destruct (HW _ _ _ _ _ _ IN0) as (HC0 & HP0).
            assert (GW : forall w, f a = Ok w -> good all (write_file n h (Complete w) d)).
            { intros w Hw n' h'. unfold write_file. destruct (String.eqb_spec n' n) as [->|]; cbn [andb]; [|exact (HG n' h')].
              destruct (Z.eqb_spec h' h) as [->|]; [|exact (HG n h')]. intros f' hs' ad' a' c' Hin Hk.
              rewrite <- Hw. exact (HC n f' hs' ad' a' c' f hs ad a c h Hin IN0 Hk EK). }
            destruct (f a) as [w|e] eqn:F; [|injection E as <- <-; split; [exact HG|intros h' r _ Hr; injection Hr as <-; reflexivity]].
            destruct (is_none w); [injection E as <- <-; split; [exact HG|intros h' r _ Hr; injection Hr as <-; reflexivity]|].
            rewrite (HP0 w eq_refl) in E. destruct c; try (injection E as <- <-; split; [first [exact (GW w eq_refl)|exact HG]|intros h' r _ Hr; first [discriminate|injection Hr as <-; reflexivity]]).
            contradiction. }
        destruct K as (G' & KV). specialize (IH all d' HI' HC HW G'). destruct (disk_run is_none picklable evs d') as [vs d'']. cbn [fst snd] in *.
        destruct IH as (IG & IV). split; [exact IG|]. intros i n' f' hs' ad' a' c' h r Hi HK Hr. destruct i as [|i]; cbn in Hi, Hr.
        * injection Hi as <- <- <- <- <- <-. injection Hr as Hr. exact (KV h r HK Hr).
        * exact (IV i n' f' hs' ad' a' c' h r Hi HK Hr).
      + assert (G' : good all (clear_cache nm d)).
        { intros n h. unfold clear_cache. destruct nm as [s|]; [|exact I]. destruct (String.eqb s ""); [exact I|]. destruct (String.eqb n s); [exact I|exact (HG n h)]. }
        specialize (IH all (clear_cache nm d) HI' HC HW G'). destruct (disk_run is_none picklable evs _) as [vs d'']. cbn [fst snd] in *.
        destruct IH as (IG & IV). split; [exact IG|]. intros i n' f' hs' ad' a' c' h r Hi HK Hr. destruct i as [|i]; cbn in Hi, Hr; [discriminate|].
        exact (IV i n' f' hs' ad' a' c' h r Hi HK Hr).
  Qed.

  Definition empty_disk : disk V := fun _ _ => None.

  Lemma disk_correct : forall evs, consistent evs -> complete_writes evs ->
      forall i n f hs ad a c h r, nth_error evs i = Some (ECall n f hs ad a c) -> cache_key hs ad a = Ok h ->
        nth_error (fst (disk_run is_none picklable evs empty_disk)) i = Some (Some r) -> r = f a.
  Proof.
    intros evs HC HW. exact (proj2 (disk_run_correct evs evs empty_disk (incl_refl _) HC HW (fun _ _ => I))).
  Qed.

  (** Every call answers, unless the process dies. *)
  Lemma disk_answers : forall evs d i n f hs ad a, nth_error evs i = Some (ECall n f hs ad a NoCrash) ->
      exists r, nth_error (fst (disk_run is_none picklable evs d)) i = Some (Some r).
  Proof.
    induction evs as [|e evs IH]; intros d i n f hs ad a Hi; [destruct i; discriminate|]. destruct i as [|i]; cbn in Hi.
    - injection Hi as ->. cbn [disk_run]. destruct (disk_call is_none picklable n f hs ad a NoCrash d) as [v d'] eqn:E.
      assert (K : exists r, v = Some r).
      { unfold disk_call in E. destruct (cache_key hs ad a) as [h|e]; [|injection E as <- _; eexists; reflexivity].
        destruct (d n h) as [[w|]|]; try (injection E as <- _; eexists; reflexivity). destruct (f a) as [w|e]; [|injection E as <- _; eexists; reflexivity].
        destruct (is_none w); [injection E as <- _; eexists; reflexivity|]. destruct (picklable w); injection E as <- _; eexists; reflexivity. }
      destruct K as (r & ->). destruct (disk_run is_none picklable evs d'). exists r. reflexivity.
    - destruct e as [n' f' hs' ad' a' c'|nm]; cbn [disk_run].
      + destruct (disk_call is_none picklable n' f' hs' ad' a' c' d) as [v d']. specialize (IH d' i n f hs ad a Hi). destruct (disk_run is_none picklable evs d'). exact IH.
      + specialize (IH (clear_cache nm d) i n f hs ad a Hi). destruct (disk_run is_none picklable evs _). exact IH.
  Qed.

  Definition no_clear (evs : list (@disk_event V)) : Prop := forall nm, ~ In (EClear nm) evs.

  (** An unfinished file makes all later calls fail, in all processes, until the cache is cleared. *)
  Lemma disk_poisoned : forall evs d n h, no_clear evs -> d n h = Some Partial ->
      forall i f hs ad a c, nth_error evs i = Some (ECall n f hs ad a c) -> cache_key hs ad a = Ok h ->
        nth_error (fst (disk_run is_none picklable evs d)) i = Some (Some (Err eof)).
  Proof.
    induction evs as [|e evs IH]; intros d n h HN HD i f hs ad a c Hi HK; [destruct i; discriminate|].
    assert (HN' : no_clear evs) by (intros nm Hin; exact (HN nm (or_intror Hin))).
    destruct e as [n' f' hs' ad' a' c'|nm]; [|exfalso; exact (HN nm (or_introl eq_refl))].
    cbn [disk_run]. destruct (disk_call is_none picklable n' f' hs' ad' a' c' d) as [v d'] eqn:E.
    assert (HD' : d' n h = Some Partial).
    { unfold disk_call in E. destruct (cache_key hs' ad' a') as [h'|e] eqn:EK; [|injection E as _ <-; exact HD].
      assert (W : d n' h' = None -> forall x, write_file n' h' x d n h = Some Partial).
      { intros Hn x. unfold write_file. destruct (String.eqb_spec n n') as [->|]; cbn [andb]; [|exact HD].
        destruct (Z.eqb_spec h h') as [->|]; [congruence|exact HD]. }
      destruct (d n' h') as [[w|]|] eqn:ED; try (injection E as _ <-; exact HD).
      destruct (f' a') as [w|e]; [|injection E as _ <-; exact HD]. destruct (is_none w); [injection E as _ <-; exact HD|].
      destruct c'; try destruct (picklable w); injection E as _ <-; first [exact HD|apply W; reflexivity]. }
    destruct i as [|i]; cbn in Hi.
    - injection Hi as -> -> -> -> -> ->. unfold disk_call in E. rewrite HK, HD in E. injection E as <- _.
      destruct (disk_run is_none picklable evs d'). reflexivity.
    - specialize (IH d' n h HN' HD' i f hs ad a c Hi HK). destruct (disk_run is_none picklable evs d'). exact IH.
  Qed.

  Lemma disk_crash_poisons : forall evs n f hs ad a h v, no_clear evs -> cache_key hs ad a = Ok h -> f a = Ok v -> is_none v = false ->
      forall i f' hs' ad' a' c', nth_error evs i = Some (ECall n f' hs' ad' a' c') -> cache_key hs' ad' a' = Ok h ->
        nth_error (fst (disk_run is_none picklable (ECall n f hs ad a CrashDuring :: evs) empty_disk)) (S i) = Some (Some (Err eof)).
  Proof.
    intros evs n f hs ad a h v HN HK HF HV i f' hs' ad' a' c' Hi HK'. cbn [disk_run]. unfold disk_call. rewrite HK. cbn [empty_disk].
    rewrite HF, HV.
    pose proof (disk_poisoned evs (write_file n h Partial empty_disk) n h HN ltac:(unfold write_file; rewrite String.eqb_refl, Z.eqb_refl; reflexivity) i f' hs' ad' a' c' Hi HK') as K.
    destruct (disk_run is_none picklable evs _). exact K.
  Qed.

  (** None is computed again at each call. *)
  Lemma disk_none : forall d n f hs ad a c h v, cache_key hs ad a = Ok h -> d n h = None -> f a = Ok v -> is_none v = true ->
      disk_call is_none picklable n f hs ad a c d = (Some (Ok v), d).
  Proof. intros d n f hs ad a c h v HK HD HF HV. unfold disk_call. rewrite HK, HD, HF, HV. reflexivity. Qed.

  (** Functions with the same name share their files. *)
  Lemma disk_same_name : forall n f g hs ad a h v, cache_key hs ad a = Ok h -> f a = Ok v -> is_none v = false -> picklable v = true ->
      fst (disk_run is_none picklable [ECall n f hs ad a NoCrash; ECall n g hs ad a NoCrash] empty_disk) = [Some (Ok v); Some (Ok v)].
  Proof.
    intros n f g hs ad a h v HK HF HV HP. cbn [disk_run]. unfold disk_call. rewrite HK. cbn [empty_disk]. rewrite HF, HV, HP.
    unfold write_file. rewrite String.eqb_refl, Z.eqb_refl. reflexivity.
  Qed.

  Lemma diskdict_never : forall hash addr name key v d h, diskdict_key hash addr key = Ok h ->
      fst (diskdict_set hash addr name key v d) = Err ExcType /\
      diskdict_get hash addr name key (snd (diskdict_set hash addr name key v d)) = Ok (@None V).
  Proof. intros hash addr name key v d h H. unfold diskdict_set, diskdict_get. rewrite H. split; reflexivity. Qed.
End Disk.
