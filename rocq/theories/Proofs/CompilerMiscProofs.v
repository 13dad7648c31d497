(** Proofs about calibrations as vectors and dictionaries. *)
From Coq Require Import String List Bool Arith Lia.
From Verif Require Import Base.Prelude Base.Dict Model.CompilerMisc Spec.CompilerMisc.
Import ListNotations.
Open Scope string_scope.
Open Scope list_scope.

(** ** calibration_to_dict *)
Section ToDict.
Context {V : Type}.

Lemma assign_entries_ok : forall syms (values : list V) i d,
  i + length syms <= length values ->
  exists d', assign_entries syms i values d = Ok d' /\
    (forall s, ~ In s syms -> dget d' s = dget d s) /\
    (NoDup syms -> forall j s, nth_error syms j = Some s ->
       dget d' s = nth_error values (i + j)).
Proof.
  intros syms; induction syms as [|s0 syms IH]; intros values i d H; simpl in *.
  - exists d. split; [reflexivity|]. split; [reflexivity|].
    intros _ j s Hj. destruct j; discriminate.
  - destruct (nth_error values i) as [v|] eqn:Ev.
    2:{ apply nth_error_None in Ev. lia. }
    destruct (IH values (S i) (dset d s0 v)) as (d' & Hd' & Ho & Hs); [lia|].
    exists d'. split; [exact Hd'|]. split.
    + intros s Hn. rewrite Ho by tauto. apply dget_dset_other. intros C. subst. tauto.
    + intros Hnd j s Hj. inversion Hnd as [|? ? Hn0 Hnd']; subst.
      destruct j as [|j]; simpl in Hj.
      * inversion Hj; subst. rewrite Ho by exact Hn0.
        rewrite dget_dset_same. rewrite Nat.add_0_r. symmetry. exact Ev.
      * rewrite (Hs Hnd' j s Hj). f_equal. lia.
Qed.

(** Whatever the order, every symbol of a group ends with a value coming from
    that group or a later one; a general fact about one pass. *)
Lemma assign_entries_value : forall (P : string -> V -> Prop) syms (values : list V) i d d',
  assign_entries syms i values d = Ok d' ->
  (forall j s v, nth_error syms j = Some s -> nth_error values (i + j) = Some v -> P s v) ->
  (forall s v, dget d s = Some v -> P s v) ->
  (forall s v, dget d' s = Some v -> P s v) /\
  (forall s, In s syms -> exists v, dget d' s = Some v) /\
  (forall s v, dget d s = Some v -> exists v', dget d' s = Some v').
Proof.
  intros P syms; induction syms as [|s0 syms IH]; intros values i d d' H Hv Hd; simpl in H.
  - inversion H; subst. split; [exact Hd|]. split; [intros s []|eauto].
  - destruct (nth_error values i) as [v|] eqn:Ev; [|discriminate].
    destruct (IH values (S i) (dset d s0 v) d' H) as (A & B & C).
    + intros j s w Hj Hw. apply (Hv (S j) s w Hj). replace (i + S j) with (S i + j) by lia.
      exact Hw.
    + intros s w Hs. rewrite dget_dset in Hs. destruct (String.eqb s s0) eqn:E.
      * apply String.eqb_eq in E. inversion Hs; subst.
        apply (Hv 0 s0 w eq_refl). rewrite Nat.add_0_r. exact Ev.
      * apply Hd, Hs.
    + split; [exact A|]. split.
      * intros s [Hs|Hs]; [|apply B, Hs]. subst.
        apply (C s v). apply dget_dset_same.
      * intros s w Hs. destruct (string_dec s s0) as [->|Hne].
        -- apply (C s0 v). apply dget_dset_same.
        -- apply (C s w). rewrite dget_dset_other by exact Hne. exact Hs.
Qed.

Lemma to_dict_value : forall (P : string -> V -> Prop) symbols calib d d',
  to_dict_loop symbols calib d = Ok d' ->
  (forall g values syms j s v, In (g, values) calib -> g <> "covariances" ->
     loosy_getitem symbols g = Ok syms ->
     nth_error syms j = Some s -> nth_error values j = Some v -> P s v) ->
  (forall s v, dget d s = Some v -> P s v) ->
  (forall s v, dget d' s = Some v -> P s v) /\
  (forall g values syms s, In (g, values) calib -> g <> "covariances" ->
     loosy_getitem symbols g = Ok syms -> In s syms -> exists v, dget d' s = Some v) /\
  (forall s v, dget d s = Some v -> exists v', dget d' s = Some v').
Proof.
  intros P symbols calib; induction calib as [|[g values] calib IH]; intros d d' H Hv Hd;
    simpl in H.
  - inversion H; subst. split; [exact Hd|]. split; [intros ? ? ? ? []|eauto].
  - destruct (String.eqb g "covariances") eqn:Eg.
    + destruct (IH d d' H) as (A & B & C).
      * intros; eapply Hv; eauto. right; eassumption.
      * exact Hd.
      * split; [exact A|]. split; [|exact C].
        intros g' values' syms s [Hin|Hin] Hne Hl Hs.
        -- inversion Hin; subst. apply String.eqb_eq in Eg. contradiction.
        -- eapply B; eauto.
    + destruct (loosy_getitem symbols g) as [syms|e] eqn:El; [|discriminate].
      cbn [bind] in H.
      destruct (assign_entries syms 0 values d) as [d1|e] eqn:Ea; [|discriminate].
      cbn [bind] in H.
      apply String.eqb_neq in Eg.
      destruct (assign_entries_value P _ _ _ _ _ Ea) as (A1 & B1 & C1).
      * intros j s v Hj Hvj. eapply Hv; eauto. left; reflexivity.
      * exact Hd.
      * destruct (IH d1 d' H) as (A & B & C).
        -- intros; eapply Hv; eauto. right; eassumption.
        -- exact A1.
        -- split; [exact A|]. split.
           ++ intros g' values' syms' s [Hin|Hin] Hne Hl Hs.
              ** inversion Hin; subst. rewrite El in Hl. inversion Hl; subst.
                 destruct (B1 s Hs) as [w Hw]. eapply C; eauto.
              ** eapply B; eauto.
           ++ intros s v Hs. destruct (C1 s v Hs) as [w Hw]. eapply C; eauto.
Qed.

Lemma loosy_getitem_plain : forall {W} (d : loosy W) k v,
  dget (equivalences d) k = None -> dget (items d) k = Some v -> loosy_getitem d k = Ok v.
Proof. intros W d k v He Hi. unfold loosy_getitem. rewrite He, Hi. reflexivity. Qed.

Lemma to_dict_ok : forall symbols (calib : dict (list V)) d,
  (forall g values, In (g, values) calib -> g <> "covariances" ->
     exists syms, loosy_getitem symbols g = Ok syms /\ length values = length syms) ->
  exists d', to_dict_loop symbols calib d = Ok d'.
Proof.
  intros symbols calib; induction calib as [|[g values] calib IH]; intros d H; simpl.
  - eauto.
  - destruct (String.eqb g "covariances") eqn:Eg.
    + apply IH. intros; apply H; [right|]; assumption.
    + apply String.eqb_neq in Eg.
      destruct (H g values (or_introl eq_refl) Eg) as (syms & Hs & Hl).
      rewrite Hs. cbn [bind].
      destruct (assign_entries_ok syms values 0 d) as (d1 & Hd1 & _); [lia|].
      rewrite Hd1. cbn [bind]. apply IH. intros; apply H; [right|]; assumption.
Qed.
End ToDict.

(** ** calibration_to_vector *)
Section ToVector.
Context {E V : Type}.
Variable nan : V.

Lemma vectors_get : forall symbols (sol : dict V) groups acc out,
  vectors nan symbols sol groups acc = Ok out ->
  forall g, dget out g =
    (if in_dec string_dec g groups
     then match loosy_getitem symbols g with
          | Ok syms => Some (group_vector nan sol syms)
          | Err _ => None
          end
     else dget acc g).
Proof.
  intros symbols sol groups; induction groups as [|g0 groups IH]; intros acc out H g; simpl in H.
  - inversion H; subst. reflexivity.
  - destruct (loosy_getitem symbols g0) as [syms|e] eqn:El; [|discriminate].
    cbn [bind] in H. rewrite (IH _ _ H g).
    destruct (in_dec string_dec g groups) as [Hin|Hout];
      destruct (in_dec string_dec g (g0 :: groups)) as [Hin'|Hout']; try reflexivity.
    + exfalso. apply Hout'. right; exact Hin.
    + destruct Hin' as [->|C]; [|contradiction].
      rewrite dget_dset_same, El. reflexivity.
    + apply dget_dset_other. intros ->. apply Hout'. left; reflexivity.
Qed.

Lemma vectors_ok : forall symbols (sol : dict V) groups acc,
  (forall g, In g groups -> exists syms, loosy_getitem symbols g = Ok syms) ->
  exists out, vectors nan symbols sol groups acc = Ok out.
Proof.
  intros symbols sol groups; induction groups as [|g0 groups IH]; intros acc H; simpl.
  - eauto.
  - destruct (H g0 (or_introl eq_refl)) as [syms Hs]. rewrite Hs. cbn [bind].
    apply IH. intros g Hg. apply H. right; exact Hg.
Qed.

Lemma vectors_NoDup : forall symbols (sol : dict V) groups acc out,
  vectors nan symbols sol groups acc = Ok out -> NoDup (dkeys acc) -> NoDup (dkeys out).
Proof.
  intros symbols sol groups; induction groups as [|g0 groups IH]; intros acc out H Ha; simpl in H.
  - inversion H; subst. exact Ha.
  - destruct (loosy_getitem symbols g0) as [syms|e]; [|discriminate].
    cbn [bind] in H. apply (IH _ _ H). apply dset_NoDup, Ha.
Qed.
End ToVector.

(** ** C59: round trip *)
Section RoundTrip.
Context {E V : Type}.
Variable solve : dict E -> res (dict V).
Variable nan : V.

Lemma plain_getitem : forall symbols equivs g (syms : list string),
  plain_groups symbols equivs -> dget symbols g = Some syms ->
  loosy_getitem (Loosy symbols equivs) g = Ok syms.
Proof.
  intros symbols equivs g syms [_ Hp] Hg. apply loosy_getitem_plain; [|exact Hg].
  simpl. apply dget_None. intros C. apply (Hp g C). eapply dget_In_key, Hg.
Qed.

Lemma plain_getitem_inv : forall symbols equivs g (syms : list string),
  plain_groups symbols equivs -> In g (dkeys symbols) ->
  loosy_getitem (Loosy symbols equivs) g = Ok syms -> dget symbols g = Some syms.
Proof.
  intros symbols equivs g syms [Hc Hp] Hin H.
  apply In_key_dget in Hin. destruct Hin as [s Hs].
  rewrite (plain_getitem symbols equivs g s (conj Hc Hp) Hs) in H.
  inversion H; subst. exact Hs.
Qed.

Lemma to_vector_spec : forall symbols equivs c sol,
  plain_groups symbols equivs -> solve c = Ok sol ->
  exists out, calibration_to_vector solve nan (Loosy symbols equivs) c = Ok out /\
    NoDup (dkeys out) /\
    forall g, dget out g =
      match dget symbols g with
      | Some syms => Some (group_vector nan sol syms)
      | None => None
      end.
Proof.
  intros symbols equivs c sol Hp Hs.
  unfold calibration_to_vector. rewrite Hs. cbn [bind items].
  destruct (vectors_ok nan (Loosy symbols equivs) sol (dkeys symbols) []) as [out Ho].
  - intros g Hg. apply In_key_dget in Hg. destruct Hg as [syms Hg].
    exists syms. apply plain_getitem; assumption.
  - exists out. split; [exact Ho|]. split.
    + apply (vectors_NoDup nan _ _ _ _ _ Ho). constructor.
    + intros g. rewrite (vectors_get nan _ _ _ _ _ Ho g).
      destruct (in_dec string_dec g (dkeys symbols)) as [Hin|Hout].
      * apply In_key_dget in Hin. destruct Hin as [syms Hg]. rewrite Hg.
        rewrite (plain_getitem symbols equivs g syms Hp Hg). reflexivity.
      * apply dget_None in Hout. rewrite Hout. reflexivity.
Qed.

Lemma to_vector_order : forall symbols (sol : dict V) groups acc out,
  vectors nan symbols sol groups acc = Ok out -> NoDup groups ->
  (forall g, In g groups -> ~ In g (dkeys acc)) ->
  dkeys out = dkeys acc ++ groups.
Proof.
  intros symbols sol groups; induction groups as [|g0 groups IH]; intros acc out H Hn Ha; simpl in H.
  - inversion H; subst. rewrite app_nil_r. reflexivity.
  - destruct (loosy_getitem symbols g0) as [syms|e]; [|discriminate].
    cbn [bind] in H. inversion Hn as [|? ? Hn0 Hn']; subst.
    rewrite (IH _ _ H Hn').
    + rewrite dkeys_dset.
      replace (dmem acc g0) with false.
      * rewrite <- app_assoc. reflexivity.
      * symmetry. apply dmem_false. apply Ha. left; reflexivity.
    + intros g Hg C. rewrite dkeys_dset in C.
      replace (dmem acc g0) with false in C.
      * apply in_app_or in C. destruct C as [C|[C|[]]].
        -- apply (Ha g); [right; exact Hg|exact C].
        -- subst. contradiction.
      * symmetry. apply dmem_false. apply Ha. left; reflexivity.
Qed.

Lemma round_trip : forall symbols equivs c sol,
  plain_groups symbols equivs -> solve c = Ok sol ->
  exists out d,
    calibration_to_vector solve nan (Loosy symbols equivs) c = Ok out /\
    calibration_to_dict (Loosy symbols equivs) out = Ok d /\
    (forall g i s, declared symbols g i s ->
       dget d s = Some (match dget sol s with Some v => v | None => nan end)) /\
    (forall s, (forall g i, ~ declared symbols g i s) -> dget d s = None).
Proof.
  intros symbols equivs c sol Hp Hs.
  destruct (to_vector_spec symbols equivs c sol Hp Hs) as (out & Ho & Hnd & Hg).
  assert (Hin : forall g values, In (g, values) out ->
            exists syms, dget symbols g = Some syms /\ values = group_vector nan sol syms).
  { intros g values Hi. apply In_dget in Hi; [|exact Hnd]. rewrite Hg in Hi.
    destruct (dget symbols g) as [syms|]; [|discriminate].
    exists syms. inversion Hi; subst. split; reflexivity. }
  destruct (to_dict_ok (Loosy symbols equivs) out []) as [d Hd].
  { intros g values Hi _. destruct (Hin g values Hi) as (syms & Hsy & ->).
    exists syms. split; [apply plain_getitem; assumption|].
    unfold group_vector. apply map_length. }
  exists out, d. split; [exact Ho|]. split; [exact Hd|].
  destruct (to_dict_value
              (fun s v => (exists g i, declared symbols g i s) /\
                          v = match dget sol s with Some w => w | None => nan end)
              (Loosy symbols equivs) out [] d Hd) as (A & B & _).
  - intros g values syms j s v Hi Hc Hl Hj Hv.
    destruct (Hin g values Hi) as (syms' & Hsy & ->).
    rewrite (plain_getitem symbols equivs g syms' Hp Hsy) in Hl. inversion Hl; subst syms'.
    split.
    + exists g, j, syms. split; assumption.
    + unfold group_vector in Hv. rewrite nth_error_map, Hj in Hv. simpl in Hv.
      inversion Hv. reflexivity.
  - intros s v C. discriminate.
  - split.
    + intros g i s (syms & Hsy & Hi).
      assert (Hog : dget out g = Some (group_vector nan sol syms)).
      { rewrite Hg, Hsy. reflexivity. }
      destruct (B g (group_vector nan sol syms) syms s) as [v Hv].
      * apply dget_In, Hog.
      * intros ->. apply (proj1 Hp). eapply dget_In_key, Hsy.
      * apply plain_getitem; assumption.
      * eapply nth_error_In, Hi.
      * rewrite Hv. f_equal. apply (A s v Hv).
    + intros s Hn. destruct (dget d s) as [v|] eqn:Ed; [|reflexivity].
      destruct (A s v Ed) as [(g & i & Hgi) _]. exfalso. apply (Hn g i Hgi).
Qed.
End RoundTrip.

(** ** C58: lookups *)
Section Lookups.
Context {V : Type}.
Variables (symbols : dict (list string)) (equivs : dict string) (calib : dict (list V)).
Hypothesis Hplain : plain_groups symbols equivs.
Hypothesis Hcal : calibrates symbols calib.

Lemma cal_group : forall g values, In (g, values) calib ->
  exists syms, dget symbols g = Some syms /\ length values = length syms.
Proof.
  intros g values Hi. destruct Hcal as (Hs & Hc & Hk & Hl).
  assert (Hg : dget calib g = Some values) by (apply In_dget; assumption).
  assert (Hin : In g (dkeys symbols)) by (apply Hk; eapply dget_In_key, Hg).
  apply In_key_dget in Hin. destruct Hin as [syms Hsy].
  exists syms. split; [exact Hsy|]. eapply Hl; eassumption.
Qed.

Lemma cal_dict_flat : exists flat,
  calibration_to_dict (Loosy symbols equivs) calib = Ok flat /\
  (distinct_symbols symbols -> forall g i s v values, declared symbols g i s ->
     dget calib g = Some values -> nth_error values i = Some v -> dget flat s = Some v) /\
  (forall s, (forall g i, ~ declared symbols g i s) -> dget flat s = None).
Proof.
  destruct (to_dict_ok (Loosy symbols equivs) calib []) as [d Hd].
  { intros g values Hi _. destruct (cal_group g values Hi) as (syms & Hsy & Hl).
    exists syms. split; [|exact Hl]. apply plain_getitem; assumption. }
  exists d. split; [exact Hd|].
  destruct (to_dict_value
              (fun s v => exists g i values, declared symbols g i s /\
                          dget calib g = Some values /\ nth_error values i = Some v)
              (Loosy symbols equivs) calib [] d Hd) as (A & B & _).
  - intros g values syms j s v Hi Hc Hl Hj Hv.
    destruct (cal_group g values Hi) as (syms' & Hsy & Hlen).
    rewrite (plain_getitem symbols equivs g syms' Hplain Hsy) in Hl. inversion Hl; subst syms'.
    exists g, j, values. split; [exists syms; split; assumption|]. split; [|exact Hv].
    apply In_dget; [|exact Hi]. apply Hcal.
  - intros s v C. discriminate.
  - split.
    + intros Hdist g i s v values Hdec Hg Hv.
      destruct Hdec as (syms & Hsy & Hi).
      destruct (B g values syms s) as [w Hw].
      * apply dget_In, Hg.
      * intros ->. apply (proj1 Hplain). eapply dget_In_key, Hsy.
      * apply plain_getitem; assumption.
      * eapply nth_error_In, Hi.
      * rewrite Hw. f_equal.
        destruct (A s w Hw) as (g' & i' & values' & Hdec' & Hg' & Hv').
        destruct (Hdist g i g' i' s) as [<- <-].
        -- exists syms; split; assumption.
        -- exact Hdec'.
        -- rewrite Hg in Hg'. inversion Hg'; subst values'.
           rewrite Hv in Hv'. inversion Hv'. reflexivity.
    + intros s Hn. destruct (dget d s) as [v|] eqn:Ed; [|reflexivity].
      destruct (A s v Ed) as (g & i & _ & Hgi & _). exfalso. apply (Hn g i Hgi).
Qed.

Lemma cal_init : exists c, calibration_dict_init (Loosy symbols equivs) calib equivs = Ok c.
Proof.
  destruct cal_dict_flat as (flat & Hf & _).
  unfold calibration_dict_init. rewrite Hf. eexists. reflexivity.
Qed.

Lemma init_inv : forall c, calibration_dict_init (Loosy symbols equivs) calib equivs = Ok c ->
  cd_symbols c = Loosy symbols equivs /\ cd_grouped c = Loosy calib equivs /\
  calibration_to_dict (Loosy symbols equivs) calib = Ok (cd_flat c).
Proof.
  intros c H. unfold calibration_dict_init in H.
  destruct (calibration_to_dict (Loosy symbols equivs) calib) as [flat|e]; [|discriminate].
  cbn [bind] in H. inversion H; subst. repeat split.
Qed.

Variable c : calibration_dict V.
Hypothesis Hc : calibration_dict_init (Loosy symbols equivs) calib equivs = Ok c.

Lemma lookup_group : forall g values, dget calib g = Some values ->
  cd_getitem c (KStr g) = Ok (AVec values).
Proof.
  intros g values Hg. destruct (init_inv c Hc) as (Hs & Hgr & _).
  assert (Hin : In g (dkeys symbols)).
  { apply (proj1 (proj2 (proj2 Hcal))). eapply dget_In_key, Hg. }
  simpl. rewrite Hs. cbn [items].
  replace (dmem symbols g) with true by (symmetry; apply dmem_spec; exact Hin).
  cbn [orb]. rewrite Hgr, (loosy_getitem_plain (Loosy calib equivs) g values).
  - reflexivity.
  - cbn. apply dget_None. intros C. apply (proj2 Hplain g C Hin).
  - exact Hg.
Qed.

Lemma lookup_alias : forall a g values, dget equivs a = Some g -> dget calib g = Some values ->
  cd_getitem c (KStr a) = Ok (AVec values).
Proof.
  intros a g values Ha Hg. destruct (init_inv c Hc) as (Hs & Hgr & _).
  simpl. rewrite Hs, Hgr. cbn [items equivalences].
  replace (dmem equivs a) with true by (unfold dmem; rewrite Ha; reflexivity).
  rewrite orb_true_r. unfold loosy_getitem. cbn [items equivalences].
  rewrite Ha, Hg. reflexivity.
Qed.

Lemma lookup_symbol : distinct_symbols symbols -> forall g i s values v,
  declared symbols g i s -> dget calib g = Some values -> nth_error values i = Some v ->
  ~ In s (dkeys symbols) -> ~ In s (dkeys equivs) ->
  cd_getitem c (KStr s) = Ok (ANum v).
Proof.
  intros Hd g i s values v Hdec Hg Hv Hn1 Hn2.
  destruct (init_inv c Hc) as (Hs & Hgr & Hf).
  destruct cal_dict_flat as (flat & Hf' & Hfv & _).
  rewrite Hf in Hf'. inversion Hf'; subst flat.
  simpl. rewrite Hs, Hgr. cbn [items equivalences].
  apply dmem_false in Hn1. apply dmem_false in Hn2. rewrite Hn1, Hn2. cbn [orb].
  rewrite (Hfv Hd g i s v values Hdec Hg Hv). reflexivity.
Qed.

Lemma lookup_unknown : forall s, ~ In s (dkeys symbols) -> ~ In s (dkeys equivs) ->
  (forall g i, ~ declared symbols g i s) -> cd_getitem c (KStr s) = Err ExcKey.
Proof.
  intros s Hn1 Hn2 Hn. destruct (init_inv c Hc) as (Hs & Hgr & Hf).
  destruct cal_dict_flat as (flat & Hf' & _ & Hfn).
  rewrite Hf in Hf'. inversion Hf'; subst flat.
  simpl. rewrite Hs, Hgr. cbn [items equivalences].
  apply dmem_false in Hn1. apply dmem_false in Hn2. rewrite Hn1, Hn2. cbn [orb].
  rewrite (Hfn s Hn). reflexivity.
Qed.
End Lookups.

Section Tuples.
Context {V : Type}.
Variable c : calibration_dict V.

Lemma lookup_tuple_ok : forall ks l, Forall2 (fun k a => cd_getitem c k = Ok a) ks l ->
  cd_getitem c (KTuple ks) = Ok (AList l).
Proof.
  intros ks l H. simpl.
  match goal with |- bind (?f ks) _ = _ => set (go := f) end.
  assert (G : go ks = Ok l).
  { induction H as [|k a ks l Hk Hr IH]; [reflexivity|].
    simpl. rewrite Hk. cbn [bind]. rewrite IH. reflexivity. }
  rewrite G. reflexivity.
Qed.

Lemma lookup_tuple_inv : forall ks a, cd_getitem c (KTuple ks) = Ok a ->
  exists l, a = AList l /\ Forall2 (fun k a => cd_getitem c k = Ok a) ks l.
Proof.
  intros ks a H. simpl in H.
  match type of H with bind (?f ks) _ = _ => set (go := f) in H end.
  destruct (go ks) as [l|e] eqn:G; [|discriminate].
  cbn [bind] in H. inversion H; subst. exists l. split; [reflexivity|].
  clear H. revert l G. induction ks as [|k ks IH]; intros l G; simpl in G.
  - inversion G; subst. constructor.
  - destruct (cd_getitem c k) as [b|e] eqn:Hk; [|discriminate]. cbn [bind] in G.
    destruct (go ks) as [l'|e] eqn:G'; [|discriminate]. cbn [bind] in G.
    inversion G; subst. constructor; [exact Hk|]. apply IH. reflexivity.
Qed.
End Tuples.

(** ** C60: histories of a LoosyDict *)
Section LoosyHistory.
Context {V : Type}.

Lemma lstep_get : forall (d : loosy V) o k, dget (items (lstep d o)) k = effect k o (dget (items d) k).
Proof.
  intros d [k' v|k'] k; simpl.
  - apply dget_dset.
  - unfold loosy_delitem. destruct (dmem (items d) k') eqn:E; simpl.
    + apply dget_ddel.
    + destruct (String.eqb k k') eqn:Ek; [|reflexivity].
      apply String.eqb_eq in Ek. subst. apply dget_None. apply dmem_false, E.
Qed.

Lemma lstep_equiv : forall (d : loosy V) o, equivalences (lstep d o) = equivalences d.
Proof.
  intros d [k v|k]; simpl; [reflexivity|]. unfold loosy_delitem.
  destruct (dmem (items d) k); reflexivity.
Qed.

Lemma lrun_get : forall h (d : loosy V) k,
  dget (items (lrun d h)) k = left_under k (dget (items d) k) h.
Proof.
  intros h; induction h as [|o h IH]; intros d k; [reflexivity|].
  unfold lrun, left_under in *. cbn [fold_left]. rewrite IH, lstep_get. reflexivity.
Qed.

Lemma lrun_equiv : forall h (d : loosy V), equivalences (lrun d h) = equivalences d.
Proof.
  intros h; induction h as [|o h IH]; intros d; [reflexivity|].
  unfold lrun in *. cbn [fold_left]. rewrite IH. apply lstep_equiv.
Qed.

Lemma loosy_history : forall (kwargs : dict V) equivs h p,
  loosy_getitem (lrun (loosy_init kwargs equivs) h) p =
  let k := match equivs with
           | Some e => match dget e p with Some k => k | None => p end
           | None => p
           end in
  match left_under k (dget kwargs k) h with Some v => Ok v | None => Err ExcKey end.
Proof.
  intros kwargs equivs h p. unfold loosy_getitem. rewrite lrun_equiv.
  rewrite lrun_get. cbn zeta. destruct equivs; reflexivity.
Qed.
End LoosyHistory.
