(** Proofs about the model object. *)
From Coq Require Import Ascii String List Bool Arith ZArith Lia.
From Verif Require Import Base.Prelude Base.Dict Base.Strings Model.CompilerMisc
  Spec.CompilerMisc Proofs.CompilerMiscProofs Model.ModelObject Spec.ModelObject.
Import ListNotations.
Open Scope string_scope.
Open Scope list_scope.

(** ** Calibration *)
Section Calibration.
Context {E V : Type}.
Variables (zero_expr nan_expr : E).

Lemma from_lines_get : forall (lines : dict E) k, NoDup (dkeys lines) ->
  dget (from_lines lines) k = dget lines k.
Proof.
  intros lines k H. change (from_lines lines) with (dupdate [] lines).
  rewrite dget_dupdate by exact H. destruct (dget lines k); reflexivity.
Qed.

Lemma add_default_get : forall (c : dict E) k e k',
  dget (add_default c k e) k' =
  match dget c k' with
  | Some x => Some x
  | None => if String.eqb k' k then Some e else None
  end.
Proof.
  intros c k e k'. unfold add_default, dmem. destruct (dget c k) as [x|] eqn:Ek.
  - destruct (dget c k') eqn:Ek'; [reflexivity|].
    destruct (String.eqb k' k) eqn:Eq; [|reflexivity].
    apply String.eqb_eq in Eq. subst. congruence.
  - rewrite dget_dset. destruct (String.eqb k' k) eqn:Eq.
    + apply String.eqb_eq in Eq. subst. rewrite Ek. reflexivity.
    + destruct (dget c k'); reflexivity.
Qed.

Lemma add_definitions_get : forall (defs c : dict E) k,
  dget (add_definitions c defs) k =
  match dget c k with Some x => Some x | None => dget defs k end.
Proof.
  intros defs; induction defs as [|[k0 e0] defs IH]; intros c k.
  - simpl. destruct (dget c k); reflexivity.
  - unfold add_definitions in *. cbn [fold_left fst snd]. rewrite IH, add_default_get.
    cbn [dget]. destruct (dget c k); [reflexivity|].
    destruct (String.eqb k k0); reflexivity.
Qed.

Lemma add_symbols_get : forall syms (c : dict E) e k,
  dget (fold_left (fun c s => add_default c s e) syms c) k =
  match dget c k with
  | Some x => Some x
  | None => if in_dec string_dec k syms then Some e else None
  end.
Proof.
  intros syms; induction syms as [|s syms IH]; intros c e k.
  - simpl. destruct (dget c k); reflexivity.
  - cbn [fold_left]. rewrite IH, add_default_get.
    destruct (dget c k); [reflexivity|].
    destruct (String.eqb k s) eqn:Eq.
    + apply String.eqb_eq in Eq. subst.
      destruct (in_dec string_dec s (s :: syms)) as [_|n]; [reflexivity|].
      exfalso. apply n. left; reflexivity.
    + apply String.eqb_neq in Eq.
      destruct (in_dec string_dec k syms) as [i|n];
        destruct (in_dec string_dec k (s :: syms)) as [i'|n']; try reflexivity.
      * exfalso. apply n'. right; exact i.
      * exfalso. destruct i' as [C|C]; [apply Eq; symmetry; exact C|contradiction].
Qed.

(** The groups: a name gets at most one default, from a group that declares it. *)
Lemma add_groups_get : forall symbols groups c out,
  add_groups zero_expr nan_expr symbols groups c = Ok out ->
  forall k,
    (forall e, dget c k = Some e -> dget out k = Some e) /\
    (dget c k = None ->
       (exists g syms, In g groups /\ initialized_from_model g = false /\
          loosy_getitem symbols g = Ok syms /\ In k syms /\
          dget out k = Some (initial_value zero_expr nan_expr g)) \/
       ((forall g syms, In g groups -> initialized_from_model g = false ->
          loosy_getitem symbols g = Ok syms -> ~ In k syms) /\ dget out k = None)).
Proof.
  intros symbols groups; induction groups as [|g groups IH]; intros c out H k; simpl in H.
  - inversion H; subst. split; [intros e He; exact He|]. intros Hn. right.
    split; [intros g syms []|exact Hn].
  - destruct (initialized_from_model g) eqn:Ei.
    + destruct (IH c out H k) as [A B]. split; [exact A|].
      intros Hn. destruct (B Hn) as [(g' & syms & Hg & Hi & Hl & Hk & Ho)|[Hall Ho]].
      * left. exists g', syms. repeat split; try assumption. right; exact Hg.
      * right. split; [|exact Ho]. intros g' syms [->|Hg] Hi Hl; [congruence|].
        eapply Hall; eassumption.
    + destruct (loosy_getitem symbols g) as [syms|e] eqn:El; [|discriminate].
      cbn [bind] in H.
      destruct (IH _ out H k) as [A B]. rewrite add_symbols_get in A, B.
      split.
      * intros e He. apply A. rewrite He. reflexivity.
      * intros Hn. rewrite Hn in A, B.
        destruct (in_dec string_dec k syms) as [i|n].
        -- left. exists g, syms. repeat split; try assumption; [left; reflexivity|].
           apply A. reflexivity.
        -- destruct (B eq_refl) as [(g' & syms' & Hg & Hi & Hl & Hk & Ho)|[Hall Ho]].
           ++ left. exists g', syms'. repeat split; try assumption. right; exact Hg.
           ++ right. split; [|exact Ho]. intros g' syms' [->|Hg] Hi Hl.
              ** rewrite El in Hl. inversion Hl; subst. exact n.
              ** eapply Hall; eassumption.
Qed.

Variable value : E -> dict V -> V -> Prop.
Variable solve : dict E -> res (dict V).
Hypothesis Hsolve : solves_systems value solve.

Lemma calibration_meaning : forall symbols equivs lines defs sol,
  plain_groups symbols equivs -> distinct_symbols symbols -> NoDup (dkeys lines) ->
  get_calibration zero_expr nan_expr solve (Loosy symbols equivs) lines defs = Ok sol ->
  forall k,
    (forall e, dget lines k = Some e -> exists v, dget sol k = Some v /\ value e sol v) /\
    (dget lines k = None -> forall e, dget defs k = Some e ->
       exists v, dget sol k = Some v /\ value e sol v) /\
    (dget lines k = None -> dget defs k = None ->
       (forall g i, declared symbols g i k ->
          if in_dec string_dec g ["values"; "expectations"; "direct_responses"]
          then dget sol k = None
          else exists v, dget sol k = Some v /\
                 value (if String.eqb g "exogenous" then zero_expr else nan_expr) sol v) /\
       ((forall g i, ~ declared symbols g i k) -> dget sol k = None)).
Proof.
  intros symbols equivs lines defs sol Hp Hd Hn H k.
  unfold get_calibration in H.
  destruct (add_groups zero_expr nan_expr (Loosy symbols equivs)
              (dkeys (items (Loosy symbols equivs)))
              (add_definitions (from_lines lines) defs)) as [c|e] eqn:Ec; [|discriminate].
  cbn [bind] in H.
  destruct (add_groups_get _ _ _ _ Ec k) as [A B].
  rewrite add_definitions_get, from_lines_get in A, B by exact Hn.
  pose proof (Hsolve c sol H k) as Hs.
  split; [|split].
  - intros e He. rewrite He in A. rewrite (A e eq_refl) in Hs. exact Hs.
  - intros Hl e He. rewrite Hl in A. rewrite (A e He) in Hs. exact Hs.
  - intros Hl Hdf. rewrite Hl, Hdf in B. specialize (B eq_refl). cbn [items] in B.
    assert (Hin : forall g syms, In g (dkeys symbols) ->
              loosy_getitem (Loosy symbols equivs) g = Ok syms -> dget symbols g = Some syms).
    { intros g syms Hg Hgs. eapply plain_getitem_inv; eassumption. }
    assert (Hinit : forall g, initialized_from_model g = false <->
              ~ In g ["values"; "expectations"; "direct_responses"]).
    { intros g. unfold initialized_from_model.
      split; intros Hi.
      - intros C.
        assert (T : existsb (String.eqb g) ["values"; "expectations"; "direct_responses"] = true).
        { apply existsb_exists. exists g. split; [exact C|apply String.eqb_refl]. }
        congruence.
      - destruct (existsb (String.eqb g) ["values"; "expectations"; "direct_responses"]) eqn:Ex;
          [|reflexivity].
        apply existsb_exists in Ex. destruct Ex as (x & Hx & Hxg).
        apply String.eqb_eq in Hxg. subst. contradiction. }
    split.
    + intros g i Hg. assert (Hg' := Hg). destruct Hg' as (syms & Hsy & Hi).
      destruct (in_dec string_dec g ["values"; "expectations"; "direct_responses"]) as [Hex|Hnex].
      * destruct B as [(g' & syms' & Hgin & Hi' & Hl' & Hk & Ho)|[_ Ho]].
        -- exfalso. apply In_nth_error in Hk. destruct Hk as [i' Hk].
           destruct (Hd g i g' i' k Hg) as [<- _].
           { exists syms'. split; [apply Hin; assumption|exact Hk]. }
           apply Hinit in Hi'. contradiction.
        -- rewrite Ho in Hs. exact Hs.
      * destruct B as [(g' & syms' & Hgin & Hi' & Hl' & Hk & Ho)|[Hall Ho]].
        -- rewrite Ho in Hs. apply In_nth_error in Hk. destruct Hk as [i' Hk].
           destruct (Hd g i g' i' k Hg) as [<- _].
           { exists syms'. split; [apply Hin; assumption|exact Hk]. }
           unfold initial_value in Hs.
           destruct (String.eqb g "exogenous"); [exact Hs|].
           destruct (String.eqb g "expectations") eqn:E1.
           { exfalso. apply Hnex. apply String.eqb_eq in E1. subst. simpl. tauto. }
           destruct (String.eqb g "values") eqn:E2.
           { exfalso. apply Hnex. apply String.eqb_eq in E2. subst. simpl. tauto. }
           exact Hs.
        -- exfalso. apply (Hall g syms).
           ++ eapply dget_In_key, Hsy.
           ++ apply Hinit, Hnex.
           ++ apply plain_getitem; assumption.
           ++ eapply nth_error_In, Hi.
    + intros Hnd. destruct B as [(g' & syms' & Hgin & Hi' & Hl' & Hk & Ho)|[_ Ho]].
      * exfalso. apply In_nth_error in Hk. destruct Hk as [i' Hk].
        apply (Hnd g' i'). exists syms'. split; [apply Hin; assumption|exact Hk].
      * rewrite Ho in Hs. exact Hs.
Qed.
End Calibration.

(** ** Caches *)
Section Caches.
Context {E Sol View X Dom Sec : Type}.
Variable cc : option (dict E) -> res Sol.
Variable wrap : Sol -> res View.
Variable cx : option (dict E) -> res X.
Variable cd : option (dict E) -> Sec -> Sec * res (option Dom).
(** Reading the domain may rewrite its section, but not what later reads say. *)
Hypothesis stable : forall l l' s, snd (cd l (fst (cd l' s))) = snd (cd l s).

Definition coherent (sec0 : Sec) (lines : option (dict E)) (o : object E View X Dom Sec) : Prop :=
  o_lines o = lines /\
  (forall l, snd (cd l (o_sec o)) = snd (cd l sec0)) /\
  (forall c, o_calibration o = Some c -> bind (cc lines) wrap = Ok c) /\
  (forall x, o_exogenous o = Some x -> cx lines = Ok x) /\
  (forall d, o_domain o = Some d -> snd (cd lines sec0) = Ok (Some d)).

Lemma set_keywords_coherent : forall sec0 lines o kwargs,
  coherent sec0 lines o ->
  coherent sec0 (match lines with Some d => Some (dupdate d kwargs) | None => None end)
    (fst (set_keywords o kwargs)) /\
  snd (set_keywords o kwargs) = match lines with Some _ => Ok tt | None => Err ExcKey end.
Proof.
  intros sec0 lines o kwargs (Hl & Hs & _). unfold set_keywords, set_changed.
  cbn [o_lines]. rewrite Hl. destruct lines as [d|]; cbn; (split; [|reflexivity]).
  - unfold coherent. cbn. repeat split; try discriminate. exact Hs.
  - unfold coherent. cbn. repeat split; try discriminate. exact Hs.
Qed.

Lemma history_uncached : forall sec0 h lines o, coherent sec0 lines o ->
  history cc wrap cx cd o h = uncached cc wrap cx cd lines sec0 h.
Proof.
  intros sec0 h; induction h as [|a h IH]; intros lines o Hc; [reflexivity|].
  destruct a as [pargs kwargs| | | |]; cbn [history act uncached].
  - assert (H : coherent sec0 (write lines pargs kwargs) (fst (set_calibration o pargs kwargs)) /\
                snd (set_calibration o pargs kwargs)
                = match lines with Some _ => Ok tt | None => Err ExcKey end).
    { unfold set_calibration, write.
      destruct pargs as [|u [|u' pargs]].
      - apply set_keywords_coherent, Hc.
      - destruct (set_keywords_coherent sec0 lines o u Hc) as [C1 R1].
        destruct (set_keywords o u) as [o1 r1]. cbn [fst snd] in C1, R1. subst r1.
        destruct lines as [d|].
        + destruct (set_keywords_coherent sec0 _ o1 kwargs C1) as [C2 R2]. cbn in C2, R2.
          split; assumption.
        + cbn. split; [exact C1|reflexivity].
      - apply set_keywords_coherent, Hc. }
    destruct (set_calibration o pargs kwargs) as [o' r]. cbn [fst snd] in H.
    destruct H as [H ->]. f_equal. apply IH, H.
  - destruct Hc as (Hl & Hs & Hcal & Hx & Hd). unfold read_calibration.
    destruct (o_calibration o) as [c|] eqn:Eo.
    + rewrite <- (Hcal c eq_refl). f_equal. apply IH. unfold coherent. rewrite Eo.
      repeat split; assumption.
    + rewrite Hl. destruct (bind (cc lines) wrap) as [c|e] eqn:Eb; f_equal; apply IH.
      * unfold coherent. cbn. repeat split; try assumption.
        intros c' Hc'. injection Hc' as <-. exact Eb.
      * unfold coherent. repeat split; try assumption. intros c' Hc'. congruence.
  - destruct Hc as (Hl & Hs & Hcal & Hx & Hd). unfold read_exogenous.
    destruct (o_exogenous o) as [x|] eqn:Eo.
    + rewrite <- (Hx x eq_refl). f_equal. apply IH. unfold coherent. rewrite Eo.
      repeat split; assumption.
    + rewrite Hl. destruct (cx lines) as [x|e] eqn:Eb; f_equal; apply IH.
      * unfold coherent. cbn. repeat split; try assumption.
        intros c' Hc'. injection Hc' as <-. exact Eb.
      * unfold coherent. repeat split; try assumption. intros c' Hc'. congruence.
  - destruct Hc as (Hl & Hs & Hcal & Hx & Hd). unfold read_domain.
    destruct (o_domain o) as [d|] eqn:Eo.
    + rewrite <- (Hd d eq_refl). f_equal. apply IH. unfold coherent. rewrite Eo.
      repeat split; assumption.
    + rewrite Hl. destruct (cd lines (o_sec o)) as [s' r] eqn:Eb.
      assert (Hr : snd (cd lines sec0) = r).
      { rewrite <- Hs, Eb. reflexivity. }
      assert (Hs' : forall l, snd (cd l s') = snd (cd l sec0)).
      { intros l. rewrite <- Hs. replace s' with (fst (cd lines (o_sec o))) by (rewrite Eb; reflexivity).
        apply stable. }
      rewrite Hr. destruct r as [d|e]; f_equal; apply IH; unfold coherent; cbn;
        repeat split; try assumption.
      intros d' Hd'. subst d. exact Hr.
  - f_equal. apply IH. destruct Hc as (Hl & Hs & _). unfold coherent, set_changed. cbn.
    repeat split; try discriminate; assumption.
Qed.

Lemma new_object_history : forall lines sec h,
  history cc wrap cx cd (new_object lines sec) h = uncached cc wrap cx cd lines sec h.
Proof.
  intros lines sec h. apply history_uncached. unfold coherent, new_object. cbn.
  repeat split; discriminate.
Qed.
End Caches.

Lemma write_get : forall {E} (d : dict E) pargs kwargs k,
  proper (ASet pargs kwargs) ->
  exists d', write (Some d) pargs kwargs = Some d' /\
    dget d' k = written k (ASet pargs kwargs) (dget d k).
Proof.
  intros E d pargs kwargs k [Hp Hk]. unfold write, written. eexists. split; [reflexivity|].
  rewrite dget_dupdate by exact Hk. destruct (dget kwargs k); [reflexivity|].
  destruct pargs as [|u [|u' pargs]]; try reflexivity.
  apply dget_dupdate. inversion Hp; assumption.
Qed.

Lemma lines_after_get : forall {E} (h : list (action E)) (d : dict E) k,
  Forall proper h ->
  exists d', lines_after (Some d) h = Some d' /\ dget d' k = last_written k (dget d k) h.
Proof.
  intros E h; induction h as [|a h IH]; intros d k H.
  - exists d. split; reflexivity.
  - inversion H as [|? ? Ha Hh]; subst.
    assert (G : exists d1, (match a with ASet p q => write (Some d) p q | _ => Some d end) = Some d1 /\
                dget d1 k = written k a (dget d k)).
    { destruct a as [p q| | | |]; try (exists d; split; reflexivity).
      apply write_get, Ha. }
    destruct G as (d1 & G1 & G2). unfold lines_after, last_written in *. cbn [fold_left].
    rewrite G1, <- G2. apply IH, Hh.
Qed.

(** Reads see the lines of the whole history before them. *)
Lemma uncached_app : forall {E Sol View X Dom Sec}
  (cc : option (dict E) -> res Sol) (wrap : Sol -> res View) (cx : option (dict E) -> res X)
  (cd : option (dict E) -> Sec -> Sec * res (option Dom)) h lines sec a,
  uncached cc wrap cx cd lines sec (h ++ [a])
  = uncached cc wrap cx cd lines sec h ++
    uncached cc wrap cx cd (lines_after lines h) sec [a].
Proof.
  intros E Sol View X Dom Sec cc wrap cx cd h; induction h as [|b h IH]; intros lines sec a;
    [reflexivity|].
  destruct b; cbn [app uncached]; rewrite IH; reflexivity.
Qed.

(** ** Domain *)
Section Domain.
Context {E V Sol : Type}.
Variable eval_bound : Sol -> E -> res V.

Definition in_states (states : list string) (e : string * (bound E V * bound E V)) : bool :=
  existsb (String.eqb (fst e)) states.

Lemma existsb_In : forall k states, existsb (String.eqb k) states = true <-> In k states.
Proof.
  intros k states. rewrite existsb_exists. split.
  - intros (x & Hx & Hk). apply String.eqb_eq in Hk. subst. exact Hx.
  - intros H. exists k. split; [exact H|apply String.eqb_refl].
Qed.

Lemma filter_idem : forall states (d : section E V),
  (forall k, In k (dkeys d) -> In k states) ->
  filter (in_states states) d = d.
Proof.
  intros states d; induction d as [|[k b] d IH]; intros H; [reflexivity|].
  simpl. unfold in_states at 1. cbn [fst].
  replace (existsb (String.eqb k) states) with true.
  - rewrite IH; [reflexivity|]. intros k' Hk'. apply H. right; exact Hk'.
  - symmetry. apply existsb_In. apply H. left; reflexivity.
Qed.

Lemma filter_keys : forall states (d : section E V) k,
  In k (dkeys (filter (in_states states) d)) <-> In k (dkeys d) /\ In k states.
Proof.
  intros states d k. unfold dkeys. rewrite in_map_iff. split.
  - intros (e & <- & He). apply filter_In in He. destruct He as [He Hs].
    split; [apply in_map; exact He|]. apply existsb_In, Hs.
  - intros [Hk Hs]. apply in_map_iff in Hk. destruct Hk as (e & <- & He).
    exists e. split; [reflexivity|]. apply filter_In. split; [exact He|].
    apply existsb_In, Hs.
Qed.

Lemma filter_get : forall states (d : section E V) k, In k states ->
  dget (filter (in_states states) d) k = dget d k.
Proof.
  intros states d k Hk; induction d as [|[k0 b] d IH]; [reflexivity|].
  simpl. unfold in_states at 1. cbn [fst].
  destruct (existsb (String.eqb k0) states) eqn:E0; simpl.
  - destruct (String.eqb k k0); [reflexivity|exact IH].
  - destruct (String.eqb k k0) eqn:Ek; [|exact IH].
    apply String.eqb_eq in Ek. subst. apply existsb_In in Hk. congruence.
Qed.

Lemma filter_NoDup : forall states (d : section E V), NoDup (dkeys d) ->
  NoDup (dkeys (filter (in_states states) d)).
Proof.
  intros states d; induction d as [|[k b] d IH]; intros H; [constructor|].
  inversion H as [|? ? Hn Hd]; subst. simpl. unfold in_states at 1. cbn [fst].
  destruct (existsb (String.eqb k) states); [|apply IH, Hd].
  simpl. constructor; [|apply IH, Hd].
  intros C. apply filter_keys in C. apply Hn, C.
Qed.

Lemma fill_keys : forall states mn mx (d : section E V) k,
  In k (dkeys (fill states mn mx d)) -> In k (dkeys d) \/ In k states.
Proof.
  intros states; induction states as [|s states IH]; intros mn mx d k H; simpl in H; [tauto|].
  destruct mn as [|a mn]; [tauto|]. destruct mx as [|b mx]; [tauto|].
  apply IH in H. destruct H as [H|H]; [|right; right; exact H].
  rewrite dkeys_dset in H. destruct (dmem d s); [tauto|].
  apply in_app_or in H. destruct H as [H|[H|[]]]; [tauto|]. right; left; exact H.
Qed.

Lemma backward_keys : forall states grid (d : section E V) k,
  In k (dkeys (backward states grid d)) -> In k (dkeys d) \/ In k states.
Proof.
  intros states grid d k H. unfold backward in H.
  destruct d; [|tauto]. destruct states as [|s states]; [tauto|].
  destruct grid as [[mn|] [mx|]]; try tauto. apply fill_keys in H. exact H.
Qed.

Lemma backward_idem : forall states grid (d : section E V),
  backward states grid (backward states grid d) = backward states grid d.
Proof.
  intros states grid d. destruct d as [|e d]; [|reflexivity].
  unfold backward at 2 3.
  destruct states as [|s states]; [reflexivity|].
  destruct grid as [[mn|] [mx|]]; try reflexivity.
  destruct (fill (s :: states) mn mx []) as [|e0 l] eqn:Ef; [|reflexivity].
  simpl. exact Ef.
Qed.

(** With the list of keys made beforehand, what is written back in the section
    changes no later answer. *)
Lemma get_domain_stable : forall states grid c c' sec,
  snd (get_domain eval_bound false states grid c
         (fst (get_domain eval_bound false states grid c' sec)))
  = snd (get_domain eval_bound false states grid c sec).
Proof.
  intros states grid c c' sec.
  destruct c' as [sol'|e']; [|reflexivity].
  destruct sec as [d|]; [|reflexivity].
  unfold get_domain at 2. cbn [drop_extra fst].
  destruct c as [sol|e]; [|reflexivity].
  unfold get_domain. cbn [drop_extra snd].
  set (d1 := filter _ d).
  assert (H1 : forall k, In k (dkeys d1) -> In k states).
  { intros k Hk. apply (filter_keys states d k) in Hk. tauto. }
  change (filter (fun e => existsb (String.eqb (fst e)) states) (backward states grid d1))
    with (filter (in_states states) (backward states grid d1)).
  rewrite filter_idem.
  - rewrite backward_idem. reflexivity.
  - intros k Hk. apply backward_keys in Hk. destruct Hk as [Hk|Hk]; [apply H1, Hk|exact Hk].
Qed.

Lemma eval_section_spec : forall sol (d : section E V) l,
  eval_section eval_bound sol d = Ok l ->
  dkeys l = dkeys d /\
  forall k a b, dget d k = Some (a, b) ->
    exists x y, eval_end eval_bound sol a = Ok x /\ eval_end eval_bound sol b = Ok y /\
      dget l k = Some (x, y).
Proof.
  intros sol d; induction d as [|[k0 [a0 b0]] d IH]; intros l H; simpl in H.
  - inversion H; subst. split; [reflexivity|]. discriminate.
  - destruct (eval_end eval_bound sol a0) as [x|] eqn:Ea; [|discriminate]. cbn [bind] in H.
    destruct (eval_end eval_bound sol b0) as [y|] eqn:Eb; [|discriminate]. cbn [bind] in H.
    destruct (eval_section eval_bound sol d) as [l'|] eqn:El; [|discriminate]. cbn [bind] in H.
    inversion H; subst. destruct (IH l' eq_refl) as [Hk Hg]. split.
    + unfold dkeys in *. simpl. rewrite Hk. reflexivity.
    + intros k a b Hd. simpl in *. destruct (String.eqb k k0).
      * inversion Hd; subst. exists x, y. repeat split; assumption.
      * apply Hg, Hd.
Qed.

(** A section that mentions a state, no key popped (or the list made
    beforehand). *)
Lemma drop_extra_ok : forall live states (d d1 : section E V),
  drop_extra live states d = (d1, Ok tt) -> d1 = filter (in_states states) d.
Proof.
  intros live states d d1 H. unfold drop_extra in H. destruct live.
  - destruct (first_extra (dkeys d) states) eqn:Ef; [discriminate|]. inversion H; subst.
    symmetry. apply filter_idem. clear H. revert Ef. generalize (dkeys d1). intros l.
    induction l as [|k l IH]; intros Ef k' Hk'; [contradiction|]. simpl in Ef.
    destruct (existsb (String.eqb k) states) eqn:Ek; [|discriminate].
    destruct Hk' as [<-|Hk']; [apply existsb_In, Ek|apply IH; assumption].
  - inversion H; subst. reflexivity.
Qed.

Lemma backward_nonempty : forall states grid (d : section E V), d <> [] ->
  backward states grid d = d.
Proof. intros states grid d H. destruct d; [contradiction|reflexivity]. Qed.

Lemma domain_intervals : forall live states grid sol (sec : section E V) sec' dom s0,
  NoDup states -> NoDup (dkeys sec) -> In s0 states -> In s0 (dkeys sec) ->
  get_domain eval_bound live states grid (Ok sol) (Some sec) = (sec', Ok (Some dom)) ->
  dkeys dom = filter (fun k => existsb (String.eqb k) states) (dkeys sec) /\
  (forall s, In s (dkeys dom) <-> In s states) /\ NoDup (dkeys dom) /\
  forall s, In s states ->
    exists a b x y, dget sec s = Some (a, b) /\ eval_end eval_bound sol a = Ok x /\
      eval_end eval_bound sol b = Ok y /\ dget dom s = Some (x, y).
Proof.
  intros live states grid sol sec sec' dom s0 Hns Hnd Hs0 Hk0 H. unfold get_domain in H.
  destruct (drop_extra live states sec) as [d1 [[]|e]] eqn:Ed; [|discriminate].
  apply drop_extra_ok in Ed.
  assert (Hne : d1 <> []).
  { intros C. assert (Hi : In s0 (dkeys d1)) by (rewrite Ed; apply filter_keys; tauto).
    rewrite C in Hi. exact Hi. }
  rewrite (backward_nonempty states grid d1 Hne) in H.
  inversion H as [[H1 H2]]. clear H H1. unfold finish_domain in H2.
  destruct d1 as [|e1 d1']; [contradiction|]. set (d1 := e1 :: d1') in *.
  destruct (Nat.ltb (List.length d1) (List.length states)) eqn:El; [discriminate|].
  apply Nat.ltb_ge in El.
  destruct (eval_section eval_bound sol d1) as [l|] eqn:Ee; [|discriminate].
  cbn [bind] in H2. inversion H2; subst l. clear H2.
  destruct (eval_section_spec sol d1 dom Ee) as [Hkeys Hget].
  assert (Hnd1 : NoDup (dkeys d1)) by (rewrite Ed; apply filter_NoDup, Hnd).
  assert (Hsub : incl (dkeys d1) states).
  { intros k Hk. rewrite Ed in Hk. apply filter_keys in Hk. tauto. }
  assert (Hall : incl states (dkeys d1)).
  { apply NoDup_length_incl; [exact Hnd1| |exact Hsub].
    unfold dkeys. rewrite map_length. exact El. }
  split; [|split; [|split]].
  - rewrite Hkeys, Ed. unfold dkeys. clear.
    induction sec as [|[k b] sec IH]; [reflexivity|]. simpl. unfold in_states at 1. cbn [fst].
    destruct (existsb (String.eqb k) states); simpl; rewrite IH; reflexivity.
  - intros s. rewrite Hkeys. split; [apply Hsub|apply Hall].
  - rewrite Hkeys. exact Hnd1.
  - intros s Hs. destruct (In_key_dget d1 s (Hall s Hs)) as [[a b] Hab].
    destruct (Hget s a b Hab) as (x & y & Hx & Hy & Hxy).
    exists a, b, x, y. repeat split; try assumption.
    rewrite Ed, filter_get in Hab by exact Hs. exact Hab.
Qed.

(** When the section follows the order of the states, the vectors of bounds do
    too. *)
Lemma domain_in_order : forall live states grid sol (sec : section E V) sec' dom s0,
  NoDup states -> NoDup (dkeys sec) -> In s0 states -> In s0 (dkeys sec) ->
  filter (fun k => existsb (String.eqb k) states) (dkeys sec) = states ->
  get_domain eval_bound live states grid (Ok sol) (Some sec) = (sec', Ok (Some dom)) ->
  domain_states dom = states /\
  forall i s, nth_error states i = Some s ->
    exists a b x y, dget sec s = Some (a, b) /\ eval_end eval_bound sol a = Ok x /\
      eval_end eval_bound sol b = Ok y /\
      nth_error (domain_min dom) i = Some x /\ nth_error (domain_max dom) i = Some y.
Proof.
  intros live states grid sol sec sec' dom s0 Hns Hnd Hs0 Hk0 Hord H.
  destruct (domain_intervals live states grid sol sec sec' dom s0 Hns Hnd Hs0 Hk0 H)
    as (Hkeys & Hin & Hndd & Hget).
  rewrite Hord in Hkeys. split; [exact Hkeys|].
  intros i s Hi. destruct (Hget s (nth_error_In _ _ Hi)) as (a & b & x & y & Ha & Hx & Hy & Hd).
  exists a, b, x, y. repeat split; try assumption.
  - rewrite <- Hkeys in Hi. unfold dkeys in Hi. rewrite nth_error_map in Hi.
    destruct (nth_error dom i) as [[k xy]|] eqn:En; [|discriminate]. simpl in Hi. inversion Hi; subst k.
    unfold domain_min. rewrite nth_error_map, En. simpl.
    rewrite (In_dget dom s xy Hndd (nth_error_In _ _ En)) in Hd. inversion Hd; subst. reflexivity.
  - rewrite <- Hkeys in Hi. unfold dkeys in Hi. rewrite nth_error_map in Hi.
    destruct (nth_error dom i) as [[k xy]|] eqn:En; [|discriminate]. simpl in Hi. inversion Hi; subst k.
    unfold domain_max. rewrite nth_error_map, En. simpl.
    rewrite (In_dget dom s xy Hndd (nth_error_In _ _ En)) in Hd. inversion Hd; subst. reflexivity.
Qed.

Lemma domain_missing : forall live states grid sol (sec : section E V) s0 s1,
  NoDup states -> NoDup (dkeys sec) ->
  In s0 states -> In s0 (dkeys sec) -> In s1 states -> ~ In s1 (dkeys sec) ->
  is_err (snd (get_domain eval_bound live states grid (Ok sol) (Some sec))).
Proof.
  intros live states grid sol sec s0 s1 Hns Hnd Hs0 Hk0 Hs1 Hk1.
  destruct (get_domain eval_bound live states grid (Ok sol) (Some sec)) as [sec' r] eqn:Eg.
  cbn [snd]. destruct r as [[dom|]|e].
  - exfalso.
    destruct (domain_intervals live states grid sol sec sec' dom s0 Hns Hnd Hs0 Hk0 Eg)
      as (_ & _ & _ & Hget).
    destruct (Hget s1 Hs1) as (a & b & x & y & Ha & _).
    apply Hk1. eapply dget_In_key, Ha.
  - exfalso. unfold get_domain in Eg.
    destruct (drop_extra live states sec) as [d1 [[]|e]] eqn:Ed; [|discriminate].
    apply drop_extra_ok in Ed.
    assert (Hne : d1 <> []).
    { intros C. assert (Hi : In s0 (dkeys d1)) by (rewrite Ed; apply filter_keys; tauto).
      rewrite C in Hi. exact Hi. }
    rewrite (backward_nonempty states grid d1 Hne) in Eg.
    inversion Eg as [[H1 H2]]. unfold finish_domain in H2.
    destruct d1; [contradiction|].
    destruct (Nat.ltb _ _); [discriminate|].
    destruct (eval_section _ _ _); discriminate.
  - eexists; reflexivity.
Qed.

(** Old files: bounds taken from options:grid, in the order of the states. *)
Lemma fill_all : forall states mn mx (d : section E V),
  List.length mn = List.length states -> List.length mx = List.length states ->
  NoDup states -> (forall s, In s states -> ~ In s (dkeys d)) ->
  fill states mn mx d = d ++ combine states (combine (map BNum mn) (map BNum mx)).
Proof.
  intros states; induction states as [|s states IH]; intros mn mx d Hmn Hmx Hnd Hd.
  - simpl. rewrite app_nil_r. reflexivity.
  - destruct mn as [|a mn]; [discriminate|]. destruct mx as [|b mx]; [discriminate|].
    cbn [fill]. inversion Hnd as [|? ? Hn Hnd']; subst.
    rewrite IH.
    + assert (Hs : dset d s (BNum a, BNum b) = d ++ [(s, (BNum a, BNum b))]).
      { assert (Hsd : ~ In s (dkeys d)) by (apply Hd; left; reflexivity). clear - Hsd.
        induction d as [|[k v] d IHd]; [reflexivity|]. simpl.
        destruct (String.eqb s k) eqn:Ek.
        - apply String.eqb_eq in Ek. subst. exfalso. apply Hsd. left; reflexivity.
        - rewrite IHd; [reflexivity|]. intros C. apply Hsd. right; exact C. }
      rewrite Hs, <- app_assoc. reflexivity.
    + simpl in Hmn. lia.
    + simpl in Hmx. lia.
    + exact Hnd'.
    + intros s' Hs' C. rewrite dkeys_dset in C.
      destruct (dmem d s).
      * apply (Hd s'); [right; exact Hs'|exact C].
      * apply in_app_or in C. destruct C as [C|[C|[]]].
        -- apply (Hd s'); [right; exact Hs'|exact C].
        -- subst. contradiction.
Qed.

Lemma eval_numbers : forall sol states mn mx,
  eval_section eval_bound sol (combine states (combine (map BNum mn) (map BNum mx)))
  = Ok (combine states (combine mn mx)).
Proof.
  intros sol states; induction states as [|s states IH]; intros mn mx; [reflexivity|].
  destruct mn as [|a mn]; [reflexivity|]. destruct mx as [|b mx]; [reflexivity|].
  cbn [map combine eval_section eval_end bind]. rewrite IH. reflexivity.
Qed.

Lemma domain_old_style : forall live states mn mx sol,
  states <> [] -> NoDup states -> List.length mn = List.length states ->
  List.length mx = List.length states ->
  get_domain eval_bound live states (Some mn, Some mx) (Ok sol) None
  = (None, Ok (Some (combine states (combine mn mx)))).
Proof.
  intros live states mn mx sol Hne Hnd Hmn Hmx. unfold get_domain.
  replace (drop_extra live states (@nil (string * (bound E V * bound E V)))) with
    (@nil (string * (bound E V * bound E V)), @Ok unit tt) by (destruct live; reflexivity).
  assert (Hb : backward states (Some mn, Some mx) (@nil (string * (bound E V * bound E V)))
               = combine states (combine (map BNum mn) (map BNum mx))).
  { unfold backward. destruct states as [|s states]; [contradiction|].
    rewrite fill_all; try assumption; [reflexivity|]. intros s' _ []. }
  rewrite Hb. f_equal. unfold finish_domain.
  destruct (combine states (combine (map BNum mn) (map BNum mx))) as [|e l] eqn:Ec.
  - exfalso. destruct states as [|s states]; [contradiction|].
    destruct mn; [discriminate|]. destruct mx; discriminate.
  - rewrite <- Ec.
    replace (Nat.ltb _ _) with false.
    + rewrite eval_numbers. reflexivity.
    + symmetry. apply Nat.ltb_ge. rewrite !combine_length, !map_length. lia.
Qed.
End Domain.
