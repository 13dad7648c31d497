(** The compiled functions compute the equations; shifts. *)
From Coq Require Import String List Bool ZArith Lia Permutation.
From Verif Require Import Base.Prelude Base.Dict Spec.CompilerMisc Model.Factories Spec.Factories
  Proofs.FactoriesProofs.
Import ListNotations.
Open Scope string_scope.
Open Scope list_scope.

Section S.
Context {V : Type}.
Variable op1 : string -> V -> res V.
Variable op2 : string -> V -> V -> res V.
Notation ev := (eval op1 op2).

Lemma lookup_ok : forall {X} (d : dict X) k x, lookup d k = Ok x <-> dget d k = Some x.
Proof. intros X d k x. unfold lookup. destruct (dget d k); split; congruence. Qed.

Lemma declared_nodup : forall symbols g l, distinct_symbols symbols -> dget symbols g = Some l -> NoDup l.
Proof.
  intros symbols g l D E. apply NoDup_nth_error. intros i j Hi Hij.
  destruct (nth_error l i) as [s|] eqn:Ei; [|apply nth_error_None in Ei; lia].
  destruct (D g i g j s) as [_ H]; [exists l; auto|exists l; auto|exact H].
Qed.

Lemma nodup_concat : forall {A} (l : list (list A)),
  (forall j i j' i' g g' x, nth_error l j = Some g -> nth_error g i = Some x ->
     nth_error l j' = Some g' -> nth_error g' i' = Some x -> j = j' /\ i = i') ->
  NoDup (concat l).
Proof.
  intros A. induction l as [|g l IH]; intros H; simpl; [constructor|].
  assert (N1 : NoDup g).
  { apply NoDup_nth_error. intros i j Hi E.
    destruct (nth_error g i) as [x|] eqn:Ei; [|apply nth_error_None in Ei; lia].
    symmetry in E. exact (proj2 (H 0 i 0 j g g x eq_refl Ei eq_refl E)). }
  assert (N2 : NoDup (concat l)).
  { apply IH. intros j i j' i' a b x H1 H2 H3 H4.
    destruct (H (S j) i (S j') i' a b x H1 H2 H3 H4) as [E1 E2]. split; [lia|exact E2]. }
  assert (N3 : forall x, In x g -> ~ In x (concat l)).
  { intros x Hx Hc. apply in_concat in Hc. destruct Hc as (g' & H1 & H2).
    apply In_nth_error in Hx, H1, H2. destruct Hx as (i & Ei), H1 as (j & Ej), H2 as (i' & Ei').
    destruct (H 0 i (S j) i' g g' x eq_refl Ei Ej Ei') as [C _]. discriminate. }
  clear H IH. induction g as [|a g IH]; simpl; [exact N2|].
  inversion N1 as [|? ? M1 M2]; subst. constructor.
  - intros C. apply in_app_or in C. destruct C as [C|C]; [exact (M1 C)|].
    exact (N3 a (or_introl eq_refl) C).
  - apply IH; [exact M2|]. intros x Hx. apply N3. right. exact Hx.
Qed.

Lemma names_spec : forall (m : @source V) sp k names,
  map_res (group_symbols m) (sp_eqs (shift_spec sp k)) = Ok names ->
  List.length names = List.length (sp_eqs sp) /\
  forall j i x, (exists g, nth_error names j = Some g /\ nth_error g i = Some x) <->
                argument m sp k j i x.
Proof.
  intros m sp k names H. apply map_res_ok in H.
  split.
  - apply Forall2_len in H. simpl in H. rewrite map_length in H. symmetry. exact H.
  - assert (G : forall (e : string * Z * string) l,
      group_symbols m (if fst (fst e) =? "parameters" then e
                       else (fst (fst e), (snd (fst e) + k)%Z, snd e)) = Ok l ->
      exists syms, dget (src_symbols m) (fst (fst e)) = Some syms /\
        l = map (fun s => if string_dec (fst (fst e)) "parameters" then SPar s
                          else SVar s (snd (fst e) + k)%Z) syms).
    { intros [[g t] n] l. simpl. unfold group_symbols.
      destruct (g =? "parameters") eqn:E; simpl; rewrite ?E.
      - destruct (lookup (src_symbols m) g) as [syms|] eqn:El; [|discriminate].
        cbn [bind]. intros H0. injection H0 as <-. exists syms. split; [apply lookup_ok; exact El|].
        apply String.eqb_eq in E. subst g. reflexivity.
      - destruct (lookup (src_symbols m) g) as [syms|] eqn:El; [|discriminate].
        cbn [bind]. intros H0. injection H0 as <-. exists syms. split; [apply lookup_ok; exact El|].
        apply String.eqb_neq in E. apply map_ext. intros s.
        destruct (string_dec g "parameters"); [contradiction|reflexivity]. }
    intros j i x. split.
    + intros (l & E1 & E2). destruct (Forall2_nth _ _ _ H j l E1) as (e' & E3 & E4).
      simpl in E3. rewrite nth_error_map in E3.
      destruct (nth_error (sp_eqs sp) j) as [e|] eqn:Ee; [|discriminate]. simpl in E3.
      injection E3 as <-. destruct (G e l E4) as (syms & D & ->).
      rewrite nth_error_map in E2. destruct (nth_error syms i) as [s|] eqn:Es; [|discriminate].
      simpl in E2. injection E2 as <-. destruct e as [[g t] n]. simpl in *.
      exists g, t, n, s. split; [exact Ee|split; [exists syms; auto|reflexivity]].
    + intros (g & t & n & s & E1 & (syms & D & Es) & ->).
      destruct (Forall2_nth_l _ _ _ H j
        (if g =? "parameters" then (g, t, n) else (g, (t + k)%Z, n))) as (l & E3 & E4).
      { simpl. rewrite nth_error_map, E1. reflexivity. }
      destruct (G (g, t, n) l E4) as (syms' & D' & ->). simpl in D'.
      rewrite D in D'. injection D' as <-.
      eexists. split; [exact E3|]. rewrite nth_error_map, Es. reflexivity.
Qed.

Lemma argument_unique : forall (m : @source V) sp k j i j' i' x,
  distinct_symbols (src_symbols m) -> NoDup (map place (sp_eqs sp)) ->
  argument m sp k j i x -> argument m sp k j' i' x -> j = j' /\ i = i'.
Proof.
  intros m sp k j i j' i' x D ND (g & t & n & s & E & Ds & Ex) (g' & t' & n' & s' & E' & Ds' & Ex').
  assert (P : s = s' /\ (g = "parameters" <-> g' = "parameters") /\
              (g <> "parameters" -> t = t')).
  { subst x. destruct (string_dec g "parameters"), (string_dec g' "parameters");
      try discriminate; injection Ex'; intros; subst; repeat split; try congruence; try tauto; try lia. }
  destruct P as (<- & P & T). destruct (D _ _ _ _ _ Ds Ds') as [<- <-].
  split; [|reflexivity].
  assert (M : nth_error (map place (sp_eqs sp)) j = nth_error (map place (sp_eqs sp)) j').
  { rewrite !nth_error_map, E, E'. simpl. unfold place. simpl.
    destruct (g =? "parameters") eqn:Eg; [reflexivity|]. apply String.eqb_neq in Eg.
    rewrite (T Eg). reflexivity. }
  revert M. apply NoDup_nth_error; [exact ND|].
  rewrite map_length. apply nth_error_Some. congruence.
Qed.

Lemma group_dates_spec : forall g sp k t, g <> "parameters" ->
  In t (group_dates g (shift_spec sp k)) <-> exists n, In (g, (t - k)%Z, n) (sp_eqs sp).
Proof.
  intros g sp k t Hg. unfold group_dates. rewrite in_map_iff. split.
  - intros ([[g' t'] n] & E & Hin). simpl in E. subst t'. apply filter_In in Hin.
    destruct Hin as [Hin Eg]. simpl in Eg. apply String.eqb_eq in Eg. subst g'.
    simpl in Hin. apply in_map_iff in Hin. destruct Hin as ([[g1 t1] n1] & E1 & H1). simpl in E1.
    destruct (g1 =? "parameters") eqn:Ep.
    + apply String.eqb_eq in Ep. injection E1 as -> _ _. contradiction.
    + injection E1 as -> <- ->. exists n. replace (t1 + k - k)%Z with t1 by lia. exact H1.
  - intros (n & H). exists (g, t, n). split; [reflexivity|]. apply filter_In. split.
    + simpl. apply in_map_iff. exists (g, (t - k)%Z, n). split; [|exact H]. simpl.
      destruct (g =? "parameters") eqn:Ep; [apply String.eqb_eq in Ep; contradiction|].
      f_equal. f_equal. lia.
    + simpl. apply String.eqb_refl.
Qed.

Lemma preamble_dates_spec : forall sp k t,
  In t (preamble_dates (shift_spec sp k)) <-> complete_date sp k t.
Proof.
  intros sp k t. unfold preamble_dates, complete_date. rewrite nodup_In, filter_In.
  rewrite <- !group_dates_spec by discriminate. rewrite existsb_exists. split.
  - intros [A (u & H1 & H2)]. apply Z.eqb_eq in H2. subst u. auto.
  - intros [A B]. split; [exact A|]. exists t. split; [exact B|apply Z.eqb_refl].
Qed.

Lemma definitions_keys : forall (m : @source V) dates,
  NoDup (dkeys (src_definitions m)) -> NoDup dates ->
  let l := make_definitions m dates in
  NoDup (map fst l) /\
  forall x e, In (x, e) l <->
    exists y f t, In (y, f) (src_definitions m) /\ In t dates /\ x = SVar y t /\ e = time_shift t f.
Proof.
  intros m dates N1 N2. unfold make_definitions.
  set (raw := flat_map _ _).
  assert (ND : NoDup (map fst raw)).
  { subst raw. unfold dkeys in N1. induction (src_definitions m) as [|[y f] l IH]; simpl; [constructor|].
    inversion N1 as [|? ? M1 M2]; subst. rewrite map_app. rewrite map_map. simpl.
    assert (A : NoDup (map (fun t => SVar y t) dates)).
    { apply FinFun.Injective_map_NoDup; [|exact N2]. intros a b E. injection E. auto. }
    specialize (IH M2). revert A IH. generalize (map (fun t => SVar y t) dates) at 1 as keys.
    intros keys0 _ IH. clear keys0.
    assert (A : NoDup (map (fun t => SVar y t) dates)).
    { apply FinFun.Injective_map_NoDup; [|exact N2]. intros a b E. injection E. auto. }
    assert (B : forall x, In x (map (fun t => SVar y t) dates) ->
       ~ In x (map fst (flat_map (fun d : string * expr V =>
           map (fun t => (SVar (fst d) t, time_shift t (snd d))) dates) l))).
    { intros x Hx C. apply in_map_iff in Hx. destruct Hx as (t & <- & _).
      apply in_map_iff in C. destruct C as ([x' e'] & E & Hin). simpl in E. subst x'.
      apply in_flat_map in Hin. destruct Hin as ([y' f'] & H1 & H2).
      apply in_map_iff in H2. destruct H2 as (t' & E & _). simpl in E. injection E as -> _ _.
      apply M1. apply in_map_iff. exists (y, f'). auto. }
    clear - A B IH. induction (map (fun t => SVar y t) dates) as [|a r IHr]; simpl; [exact IH|].
    inversion A as [|? ? A1 A2]; subst. constructor.
    - intros C. apply in_app_or in C. destruct C as [C|C]; [exact (A1 C)|].
      exact (B a (or_introl eq_refl) C).
    - apply IHr; [exact A2|]. intros x Hx. apply B. right. exact Hx. }
  cbv zeta. rewrite (sdict_nodup raw ND). split; [exact ND|].
  intros x e. subst raw. rewrite in_flat_map. split.
  - intros ([y f] & H1 & H2). apply in_map_iff in H2. destruct H2 as (t & E & H2).
    simpl in E. injection E as <- <-. exists y, f, t. auto.
  - intros (y & f & t & H1 & H2 & -> & ->). exists (y, f). split; [exact H1|].
    apply in_map_iff. exists t. auto.
Qed.

Lemma combine_nodup : forall {A B} (l : list A) (l' : list B),
  NoDup l -> NoDup (map fst (combine l l')).
Proof.
  intros A B. induction l as [|a l IH]; intros [|b l'] H; simpl; try constructor.
  - inversion H as [|? ? H1 H2]; subst. intros C. apply H1.
    apply in_map_iff in C. destruct C as ([x y] & E & Hin). simpl in E. subst x.
    exact (in_combine_l _ _ _ _ Hin).
  - inversion H; subst. apply IH. assumption.
Qed.

Lemma Forall2_snd : forall {A B C} (P : B -> C -> Prop) (l : list (A * B)) o,
  Forall2 (fun c v => P (snd c) v) l o <-> Forall2 P (map snd l) o.
Proof.
  intros A B C P. induction l as [|c l IH]; intros o; split; intros H; inversion H; subst;
    simpl; constructor; try assumption; apply IH; assumption.
Qed.

Lemma Forall2_map_l : forall {A B C} (f : A -> B) (P : B -> C -> Prop) l o,
  Forall2 P (map f l) o <-> Forall2 (fun a v => P (f a) v) l o.
Proof.
  intros A B C f P. induction l as [|c l IH]; intros o; split; intros H; inversion H; subst;
    simpl; constructor; try assumption; apply IH; assumption.
Qed.

Lemma Forall2_impl : forall {A B} (P Q : A -> B -> Prop) l o,
  (forall a b, P a b -> Q a b) -> Forall2 P l o -> Forall2 Q l o.
Proof. intros A B P Q l o H F. induction F; constructor; auto. Qed.

(** the equations, from the content *)
Lemma content_values : forall (m : @source V) sp k eqs targets es (r : @env V) outs,
  make_content m (shift_spec sp k) eqs = Ok (targets, es) ->
  enough_targets m sp eqs ->
  Forall2 (fun c v => ev r (snd c) = Ok v)
    (combine targets (map (fun e => time_shift k (sanitize (src_variables m) e)) es)) outs <->
  Forall2 (equation_value op1 op2 m sp k r) eqs outs.
Proof.
  intros m sp k eqs targets es r outs H ET. unfold make_content in H. simpl in H.
  rewrite (Forall2_snd (fun e v => ev r e = Ok v)).
  destruct (sp_target sp) as [[g t]|] eqn:Et; simpl in H.
  - destruct (lookup (src_symbols m) g) as [l|] eqn:El; [|discriminate]. cbn [bind] in H.
    destruct (map_res rhs_of eqs) as [es'|] eqn:Em; [|discriminate]. cbn [bind] in H.
    injection H as <- <-. apply map_res_ok in Em. pose proof (Forall2_len _ _ _ Em) as L.
    unfold enough_targets in ET. rewrite Et in ET. apply lookup_ok in El. specialize (ET l El).
    rewrite map_snd_combine by (rewrite !map_length; lia).
    rewrite Forall2_map_l. clear - Em Et. revert outs.
    induction Em as [|q e eqs es Hq Hr IH]; intros outs.
    + split; intros H; inversion H; constructor.
    + assert (E : forall v, ev r (time_shift k (sanitize (src_variables m) e)) = Ok v <->
                            equation_value op1 op2 m sp k r q v).
      { intros v. rewrite eval_shift. unfold equation_value. rewrite Et.
        destruct q as [f|a b]; simpl in Hq; [discriminate|]. injection Hq as <-. tauto. }
      split; intros H; inversion H; subst; constructor; try (apply E; assumption);
        apply IH; assumption.
  - injection H as <- <-.
    rewrite map_snd_combine by (rewrite !map_length, seq_length; lia).
    rewrite map_map, Forall2_map_l.
    assert (E : forall q v, ev r (time_shift k (sanitize (src_variables m) (residual_of q))) = Ok v <->
                            equation_value op1 op2 m sp k r q v).
    { intros q v. rewrite eval_shift. unfold equation_value. rewrite Et.
      destruct q as [f|a b]; simpl; [tauto|].
      destruct (ev (later k r) (sanitize (src_variables m) b)) as [x|]; simpl;
        [|split; [discriminate|intros (x & y & H & _); discriminate]].
      destruct (ev (later k r) (sanitize (src_variables m) a)) as [y|]; simpl;
        [|split; [discriminate|intros (u & y & _ & H & _); discriminate]].
      split.
      - intros H. exists x, y. auto.
      - intros (u & w & H1 & H2 & H3). congruence. }
    split; apply Forall2_impl; intros q v; apply E.
Qed.

Lemma shift_sym_var : forall k y s t, shift_sym k y = SVar s t -> y = SVar s (t - k)%Z.
Proof.
  clear op1 op2.
  intros k [p|p u] s t H; simpl in H; [discriminate|]. injection H as -> <-. f_equal. lia.
Qed.

Lemma content_hygiene : forall (m : @source V) sp k eqs targets es,
  make_content m (shift_spec sp k) eqs = Ok (targets, es) ->
  targets_unused m sp eqs ->
  forall x e y f,
    In (x, e) (combine targets (map (fun e => time_shift k (sanitize (src_variables m) e)) es)) ->
    In (y, f) (combine targets (map (fun e => time_shift k (sanitize (src_variables m) e)) es)) ->
    ~ mentions f x.
Proof.
  intros m sp k eqs targets es H U x e y f H1 H2 M.
  apply in_combine_l in H1. apply in_combine_r in H2.
  apply in_map_iff in H2. destruct H2 as (e0 & <- & He0).
  destruct (mentions_shift k _ _ M) as (z & Hz & Ez).
  unfold make_content in H. simpl in H. unfold targets_unused in U.
  destruct (sp_target sp) as [[g t]|] eqn:Et; simpl in H.
  - destruct (lookup (src_symbols m) g) as [l|] eqn:El; [|discriminate]. cbn [bind] in H.
    destruct (map_res rhs_of eqs) as [es'|] eqn:Em; [|discriminate]. cbn [bind] in H.
    injection H as <- <-. apply in_map_iff in H1. destruct H1 as (s & <- & Hs).
    symmetry in Ez. apply shift_sym_var in Ez. subst z.
    apply In_nth_error in He0. destruct He0 as (i & Ei).
    destruct (Forall2_nth _ _ _ (map_res_ok _ _ _ Em) i e0 Ei) as (q & Eq & Er).
    destruct q as [w|a b]; [discriminate|]. injection Er as <-.
    apply In_nth_error in Hs. destruct Hs as (i' & Ei').
    apply (U a b i' s); [exact (nth_error_In _ _ Eq)|exists l; split; [apply lookup_ok; exact El|exact Ei']|].
    replace (t + k - k)%Z with t in Hz by lia. exact Hz.
  - injection H as <- <-. apply in_map_iff in H1. destruct H1 as (i & <- & Hi).
    apply in_seq in Hi. symmetry in Ez. apply shift_sym_var in Ez. subst z.
    apply in_map_iff in He0. destruct He0 as (q & <- & Hq).
    destruct (U i (0 - k)%Z ltac:(lia)) as [U1 U2].
    destruct q as [w|a b]; simpl in Hz.
    + exact (U1 w Hq Hz).
    + destruct (U2 a b Hq) as [A B]. destruct Hz as [Hz|Hz]; [exact (A Hz)|exact (B Hz)].
Qed.

Lemma targets_nodup : forall (m : @source V) sp k eqs targets es,
  distinct_symbols (src_symbols m) ->
  make_content m (shift_spec sp k) eqs = Ok (targets, es) -> NoDup targets.
Proof.
  intros m sp k eqs targets es D H. unfold make_content in H. simpl in H.
  destruct (sp_target sp) as [[g t]|] eqn:Et; simpl in H.
  - destruct (lookup (src_symbols m) g) as [l|] eqn:El; [|discriminate]. cbn [bind] in H.
    destruct (map_res rhs_of eqs) as [es'|] eqn:Em; [|discriminate]. cbn [bind] in H.
    injection H as <- <-. apply FinFun.Injective_map_NoDup.
    + intros a b E. injection E. auto.
    + apply lookup_ok in El. exact (declared_nodup _ _ _ D El).
  - injection H as <- <-. apply FinFun.Injective_map_NoDup; [|apply seq_NoDup].
    intros a b E. injection E as E. apply out_name_inj. unfold out_name. simpl. congruence.
Qed.

Theorem call_values :
  forall reorder (m : @source V) eq_type k sp eqs ff keep args outs,
    sorts reorder -> well_declared m ->
    chosen_spec eq_type = Some sp -> chosen_equations m eq_type = Ok eqs ->
    enough_targets m sp eqs -> (keep = true -> targets_unused m sp eqs) ->
    get_factory reorder m eq_type k = Ok ff ->
    (call op1 op2 keep ff args = Ok outs <->
     List.length args = List.length (sp_eqs sp) /\
     exists sigma, valuation op1 op2 m sp k args sigma /\
       Forall2 (equation_value op1 op2 m sp k sigma) eqs outs).
Proof.
  intros reorder m eq_type k sp eqs ff keep args outs SO (D & ND & AUX) Esp Eeq ET TU H.
  unfold get_factory in H. rewrite Eeq, Esp in H. cbn [bind] in H.
  destruct (map_res (group_symbols m) (sp_eqs (shift_spec sp k))) as [names|] eqn:En; [|discriminate].
  cbn [bind] in H.
  destruct (make_content m (shift_spec sp k) eqs) as [[targets es]|] eqn:Ec; [|discriminate].
  cbn [bind fst snd] in H.
  destruct (reorder (make_definitions m (preamble_dates (shift_spec sp k)))) as [pre|] eqn:Er;
    [|discriminate].
  cbn [bind] in H. injection H as <-.
  destruct (chosen_ok _ _ Esp) as (C1 & C2 & C3 & _).
  destruct (names_spec _ _ _ _ En) as [Ln Names].
  assert (Sh : map snd (sp_eqs (shift_spec sp k)) = map snd (sp_eqs sp)).
  { simpl. rewrite map_map. apply map_ext. intros [[g t] n]. simpl.
    destruct (g =? "parameters"); reflexivity. }
  assert (NC : NoDup (concat names)).
  { apply nodup_concat. intros j i j' i' g g' x H1 H2 H3 H4.
    apply (argument_unique m sp k j i j' i' x D C2); apply Names;
      [exists g|exists g']; auto. }
  destruct (definitions_keys m (preamble_dates (shift_spec sp k)) ND (NoDup_nodup _ _)) as [K1 K2].
  destruct (SO _ _ Er) as [PE TR].
  assert (KP : NoDup (map fst pre)).
  { apply (Permutation_NoDup (Permutation_map fst PE)). exact K1. }
  assert (IP : forall x e, In (x, e) pre <->
     exists y f t, auxiliary m sp k y f t /\ x = SVar y t /\ e = time_shift t f).
  { intros x e. split.
    - intros Hin. apply (Permutation_in _ (Permutation_sym PE)) in Hin.
      apply K2 in Hin. destruct Hin as (y & f & t & A & B & E1 & E2).
      apply preamble_dates_spec in B. exists y, f, t. unfold auxiliary. auto.
    - intros (y & f & t & [A B] & E1 & E2). apply (Permutation_in _ PE). apply K2.
      exists y, f, t. apply preamble_dates_spec in B. auto. }
  assert (DISJ : forall j i x, argument m sp k j i x -> ~ In x (map fst pre)).
  { intros j i x (g & t & n & s & E & Ds & Ex) Hin.
    apply in_map_iff in Hin. destruct Hin as ([x' e] & E1 & Hin). simpl in E1. subst x'.
    apply IP in Hin. destruct Hin as (y & f & t' & [A B] & E2 & _).
    rewrite Ex in E2. destruct (string_dec g "parameters"); [discriminate|]. injection E2 as -> _.
    assert (g = "auxiliaries").
    { apply (AUX y g i); [|exact Ds]. apply in_map_iff. exists (y, f). auto. }
    rewrite Forall_forall in C3. apply nth_error_In in E. exact (C3 _ E H). }
  unfold call. cbn [ff_arguments ff_preamble ff_content].
  rewrite make_arguments_snd;
    [|rewrite Sh; exact C1|simpl; rewrite map_length; exact Ln].
  rewrite sdict_nodup by (apply combine_nodup; exact (targets_nodup _ _ _ _ _ _ D Ec)).
  assert (CS : forall r, run_content op1 op2 keep r
      (combine targets (map (fun e => time_shift k (sanitize (src_variables m) e)) es)) = Ok outs <->
      Forall2 (equation_value op1 op2 m sp k r) eqs outs).
  { intros r. rewrite content_spec.
    - apply content_values; assumption.
    - intros Kt. exact (content_hygiene m sp k eqs targets es Ec (TU Kt)). }
  split.
  - intros H. destruct (unpack_all names args (fun _ => None)) as [r|] eqn:Eu; [|discriminate].
    cbn [bind] in H. destruct (run_definitions op1 op2 r pre) as [r'|] eqn:Ed; [|discriminate].
    cbn [bind] in H. destruct (unpack_all_sound _ _ _ _ NC Eu) as (L & U1 & U2).
    destruct (definitions_sound _ _ _ _ _ KP TR Ed) as [D1 D2].
    split; [congruence|]. exists r'. split; [|apply CS; exact H].
    split; [|split].
    + intros j i x A. assert (A' := A). apply Names in A'. destruct A' as (g & E1 & E2).
      destruct (U1 j g i x E1 E2) as (a & w & H1 & H2 & H3). exists a, w.
      split; [exact H1|split; [exact H2|]]. rewrite D1; [exact H3|exact (DISJ j i x A)].
    + intros y e t A. destruct (D2 (SVar y t) (time_shift t e)) as (v & E1 & E2).
      { apply IP. exists y, e, t. auto. }
      exists v. rewrite <- eval_shift. auto.
    + intros x v Hx. destruct (in_dec sym_dec x (map fst pre)) as [Hin|Hout].
      * right. apply in_map_iff in Hin. destruct Hin as ([x' e] & E1 & Hin). simpl in E1. subst x'.
        apply IP in Hin. destruct Hin as (y & f & t & A & E1 & _). exists y, f, t. auto.
      * left. rewrite (D1 x Hout) in Hx.
        destruct (in_dec sym_dec x (concat names)) as [Hin|Hout'].
        { apply in_concat in Hin. destruct Hin as (g & H1 & H2).
          apply In_nth_error in H1, H2. destruct H1 as (j & Ej), H2 as (i & Ei).
          exists j, i. apply Names. exists g. auto. }
        { rewrite (U2 x Hout') in Hx. discriminate. }
  - intros (L & sigma & (S1 & S2 & S3) & F).
    destruct (unpack_all_complete names args (fun _ => None)) as (r & Eu).
    { congruence. }
    { intros j g i x E1 E2. destruct (S1 j i x) as (a & v & H1 & H2 & _).
      - apply Names. exists g. auto.
      - exists a, v. auto. }
    rewrite Eu. cbn [bind]. destruct (unpack_all_sound _ _ _ _ NC Eu) as (_ & U1 & U2).
    destruct (definitions_complete op1 op2 pre r sigma KP TR) as (r' & Ed & Eq).
    { intros x Hx. destruct (in_dec sym_dec x (concat names)) as [Hin|Hout].
      - apply in_concat in Hin. destruct Hin as (g & H1 & H2).
        apply In_nth_error in H1, H2. destruct H1 as (j & Ej), H2 as (i & Ei).
        destruct (U1 j g i x Ej Ei) as (a & w & A1 & A2 & A3).
        destruct (S1 j i x) as (a' & w' & B1 & B2 & B3); [apply Names; exists g; auto|].
        congruence.
      - rewrite (U2 x Hout). destruct (sigma x) as [v|] eqn:Es; [|reflexivity].
        destruct (S3 x v Es) as [(j & i & A)|(y & e & t & A & ->)].
        + exfalso. apply Hout. apply Names in A. destruct A as (g & E1 & E2).
          apply in_concat. exists g. split; [exact (nth_error_In _ _ E1)|exact (nth_error_In _ _ E2)].
        + exfalso. apply Hx. apply in_map_iff. exists (SVar y t, time_shift t e).
          split; [reflexivity|]. apply IP. exists y, e, t. auto. }
    { intros x e Hin. apply IP in Hin. destruct Hin as (y & f & t & A & -> & ->).
      destruct (S2 y f t A) as (v & E1 & E2). exists v. rewrite eval_shift. auto. }
    rewrite Ed. cbn [bind]. apply CS.
    apply (Forall2_impl (equation_value op1 op2 m sp k sigma)); [|exact F].
    assert (EQ : forall e, ev (later k sigma) e = ev (later k r') e).
    { intros e. apply eval_ext. intros [s|s t] _; simpl; rewrite Eq; reflexivity. }
    intros q v. unfold equation_value. destruct (sp_target sp), q; rewrite <- ?EQ; auto.
Qed.

(** *** shifts *)
Lemma later_later : forall a b (sigma : sym -> option V) x,
  later a (later b sigma) x = later (a + b) sigma x.
Proof. intros a b sigma [s|s t]; simpl; [reflexivity|]. f_equal. f_equal. lia. Qed.

Lemma eval_later : forall a b c (sigma : sym -> option V) e, (a + b = c)%Z ->
  ev (later a (later b sigma)) e = ev (later c sigma) e.
Proof. intros a b c sigma e <-. apply eval_ext. intros x _. apply later_later. Qed.

Lemma valuation_shift : forall (m : @source V) sp k a args sigma,
  valuation op1 op2 m sp (a + k) args sigma -> valuation op1 op2 m sp a args (later k sigma).
Proof.
  intros m sp k a args sigma (S1 & S2 & S3).
  assert (A1 : forall j i x, argument m sp a j i x -> argument m sp (a + k) j i (shift_sym k x)).
  { intros j i x (g & t & n & s & E & Ds & ->). exists g, t, n, s. split; [exact E|split; [exact Ds|]].
    destruct (string_dec g "parameters"); simpl; [reflexivity|f_equal; lia]. }
  assert (A2 : forall j i x, argument m sp (a + k) j i (shift_sym k x) -> argument m sp a j i x).
  { intros j i x (g & t & n & s & E & Ds & Ex). exists g, t, n, s. split; [exact E|split; [exact Ds|]].
    destruct x as [p|p u]; destruct (string_dec g "parameters"); simpl in Ex; try discriminate.
    - exact Ex.
    - injection Ex as -> Eu. f_equal. lia. }
  assert (B : forall y e t, auxiliary m sp a y e t <-> auxiliary m sp (a + k) y e (t + k)).
  { intros y e t. unfold auxiliary, complete_date. replace (t + k - (a + k))%Z with (t - a)%Z by lia.
    tauto. }
  assert (SL : forall x, later k sigma x = sigma (shift_sym k x)) by (intros [s|s t]; reflexivity).
  split; [|split].
  - intros j i x A. rewrite SL. apply S1. apply A1. exact A.
  - intros y e t A. apply B in A. destruct (S2 y e (t + k)%Z A) as (v & E1 & E2).
    exists v. rewrite (eval_later t k (t + k)%Z) by reflexivity. auto.
  - intros x v Hx. rewrite SL in Hx. destruct (S3 _ _ Hx) as [(j & i & A)|(y & e & t & A & E)].
    + left. exists j, i. apply A2. exact A.
    + right. apply shift_sym_var in E. exists y, e, (t - k)%Z. split; [|exact E].
      apply B. replace (t - k + k)%Z with t by lia. exact A.
Qed.

Lemma equation_value_shift : forall (m : @source V) sp k a sigma q v,
  equation_value op1 op2 m sp (a + k) sigma q v <->
  equation_value op1 op2 m sp a (later k sigma) q v.
Proof.
  intros m sp k a sigma q v. unfold equation_value.
  assert (E : forall e, ev (later a (later k sigma)) e = ev (later (a + k) sigma) e)
    by (intros e; apply eval_later; reflexivity).
  destruct (sp_target sp), q; rewrite ?E; try tauto.
Qed.

Theorem call_shift :
  forall reorder (m : @source V) eq_type k k' sp eqs ff ff' keep args outs,
    sorts reorder -> well_declared m ->
    chosen_spec eq_type = Some sp -> chosen_equations m eq_type = Ok eqs ->
    enough_targets m sp eqs -> (keep = true -> targets_unused m sp eqs) ->
    get_factory reorder m eq_type k = Ok ff -> get_factory reorder m eq_type k' = Ok ff' ->
    call op1 op2 keep ff args = Ok outs -> call op1 op2 keep ff' args = Ok outs.
Proof.
  intros reorder m q k k' sp eqs ff ff' keep args outs SO WD Esp Eeq ET TU F F' H.
  apply (call_values _ _ _ _ _ _ _ _ _ _ SO WD Esp Eeq ET TU F) in H.
  apply (call_values _ _ _ _ _ _ _ _ _ _ SO WD Esp Eeq ET TU F').
  destruct H as (L & sigma & A & B). split; [exact L|].
  exists (later (k - k') sigma). assert (E : (k = k' + (k - k'))%Z) by lia. split.
  - apply valuation_shift. rewrite <- E. exact A.
  - apply (Forall2_impl (equation_value op1 op2 m sp k sigma)); [|exact B].
    intros e v Hv. apply equation_value_shift. rewrite <- E. exact Hv.
Qed.

(** names of the arguments and of the content *)
Theorem factory_shifted :
  forall reorder (m : @source V) eq_type k ff ff0,
    get_factory reorder m eq_type k = Ok ff -> get_factory reorder m eq_type 0 = Ok ff0 ->
    map fst (ff_arguments ff) = map fst (ff_arguments ff0) /\
    forall n, dget (ff_arguments ff) n = option_map (map (shift_sym k)) (dget (ff_arguments ff0) n).
Proof.
  intros reorder m q k ff ff0 H H0. unfold get_factory in H, H0.
  destruct (chosen_equations m q) as [eqs|]; [|discriminate]. cbn [bind] in H, H0.
  destruct (chosen_spec q) as [sp|]; [|discriminate]. cbn [bind] in H, H0.
  destruct (map_res (group_symbols m) (sp_eqs (shift_spec sp k))) as [names|] eqn:En; [|discriminate].
  destruct (map_res (group_symbols m) (sp_eqs (shift_spec sp 0))) as [names0|] eqn:En0; [|discriminate].
  cbn [bind] in H, H0.
  destruct (make_content m (shift_spec sp k) eqs) as [c|]; [|discriminate].
  destruct (make_content m (shift_spec sp 0) eqs) as [c0|]; [|discriminate].
  cbn [bind] in H, H0.
  destruct (reorder (make_definitions m (preamble_dates (shift_spec sp k)))) as [p|]; [|discriminate].
  destruct (reorder (make_definitions m (preamble_dates (shift_spec sp 0)))) as [p0|]; [|discriminate].
  cbn [bind] in H, H0. injection H as <-. injection H0 as <-. cbn [ff_arguments].
  assert (G : names = map (map (shift_sym k)) names0).
  { simpl in En, En0. revert names names0 En En0. clear.
    induction (sp_eqs sp) as [|[[g t] n] l IH]; intros names names0 En En0; simpl in En, En0.
    - injection En as <-. injection En0 as <-. reflexivity.
    - match type of En with bind ?x _ = _ => destruct x as [a|] eqn:Ea; [|discriminate] end.
      match type of En0 with bind ?x _ = _ => destruct x as [a0|] eqn:Ea0; [|discriminate] end.
      cbn [bind] in En, En0.
      match type of En with bind ?x _ = _ => destruct x as [b|] eqn:Eb; [|discriminate] end.
      match type of En0 with bind ?x _ = _ => destruct x as [b0|] eqn:Eb0; [|discriminate] end.
      cbn [bind] in En, En0. injection En as <-. injection En0 as <-. simpl. f_equal.
      + unfold group_symbols in Ea, Ea0.
        destruct (g =? "parameters") eqn:Ep; simpl in Ea, Ea0; rewrite Ep in Ea, Ea0;
          (destruct (lookup (src_symbols m) g) as [syms|]; [|discriminate]); cbn [bind] in Ea, Ea0;
          injection Ea as <-; injection Ea0 as <-; rewrite map_map; apply map_ext; intros s; simpl.
        * reflexivity.
        * f_equal. lia.
      + apply IH; reflexivity. }
  subst names. unfold make_arguments.
  assert (Sh : forall k, map snd (sp_eqs (shift_spec sp k)) = map snd (sp_eqs sp)).
  { intros k0. simpl. rewrite map_map. apply map_ext. intros [[g t] n]. simpl.
    destruct (g =? "parameters"); reflexivity. }
  rewrite !Sh. generalize (map snd (sp_eqs sp)) as ns. clear. intros ns.
  assert (G : forall (ns : list string) (vs : list (list sym)) (d d0 : dict (list sym)),
    d = map (fun e => (fst e, map (shift_sym k) (snd e))) d0 ->
    fold_left (fun d e => dset d (fst e) (snd e)) (combine ns (map (map (shift_sym k)) vs)) d =
    map (fun e => (fst e, map (shift_sym k) (snd e)))
      (fold_left (fun d e => dset d (fst e) (snd e)) (combine ns vs) d0)).
  { clear. induction ns as [|n ns IH]; intros [|v vs] d d0 ->; simpl; try reflexivity.
    apply IH. clear. induction d0 as [|[n' v'] d0 IH]; simpl; [reflexivity|].
    destruct (String.eqb n n'); simpl; [reflexivity|]. rewrite IH. reflexivity. }
  rewrite (G ns names0 [] [] eq_refl). split.
  - rewrite map_map. reflexivity.
  - intros n. generalize (fold_left (fun (d : dict (list sym)) e => dset d (fst e) (snd e))
      (combine ns names0) []) as d. clear. induction d as [|[n' v'] d IH]; simpl; [reflexivity|].
    destruct (String.eqb n n'); [reflexivity|exact IH].
Qed.

(** *** eval_formula *)
Lemma map_res_nth : forall {A B} (f : A -> res B) l l', map_res f l = Ok l' <->
  Forall2 (fun a b => f a = Ok b) l l'.
Proof.
  intros A B f. split; [apply map_res_ok|].
  intros H. induction H as [|a b l l' E H IH]; simpl; [reflexivity|].
  rewrite E. cbn [bind]. rewrite IH. reflexivity.
Qed.

Lemma check_columns_ok : forall (table : dict (nat -> V)) (e : expr V),
  check_columns table (expr_symbols e) = Ok tt <->
  (forall s t, mentions e (SVar s t) -> In s (dkeys table)).
Proof.
  intros table e.
  assert (G : forall l, check_columns table l = Ok tt <->
            (forall s t, In (SVar s t) l -> In s (dkeys table))).
  { induction l as [|[s|s t] l IH]; simpl.
    - split; [contradiction|reflexivity].
    - rewrite IH. split; intros H u w; [intros [C|C]; [discriminate|exact (H u w C)]|].
      intros C. exact (H u w (or_intror C)).
    - destruct (dmem table s) eqn:Em.
      + rewrite IH. apply dmem_spec in Em. split; intros H u w.
        * intros [C|C]; [injection C as -> ->; exact Em|exact (H u w C)].
        * intros C. exact (H u w (or_intror C)).
      + split; [discriminate|]. intros H.
        assert (C := H s t (or_introl eq_refl)). apply dmem_spec in C. congruence. }
  rewrite G.
  assert (M : forall x, In x (expr_symbols e) <-> mentions e x).
  { clear. induction e as [c|y|f a IH|f a IHa b IHb]; intros x; simpl; try tauto.
    - apply IH.
    - rewrite in_app_iff, IHa, IHb. tauto. }
  split; intros H s t; intros Hm; apply (H s t); apply M; exact Hm.
Qed.

Theorem formula_rows : forall (nan : V) T table known index e rows,
  eval_formula_table op1 op2 nan T table known index e = Ok rows <->
  (forall s t, mentions e (SVar s t) -> In s (dkeys table)) /\
  List.length rows = T /\
  forall i, i < T -> exists v, nth_error rows i = Some v /\
    ev (formula_env nan T table known index i) e = Ok v.
Proof.
  intros nan T table known index e rows. unfold eval_formula_table. rewrite <- check_columns_ok.
  destruct (check_columns table (expr_symbols e)) as [[]|x]; cbn [bind];
    [|split; [discriminate|intros (H & _); discriminate]].
  rewrite map_res_nth. split.
  - intros F. split; [reflexivity|split].
    + apply Forall2_len in F. rewrite seq_length in F. symmetry. exact F.
    + intros i Hi. destruct (Forall2_nth_l _ _ _ F i i) as (v & H1 & H2).
      { rewrite nth_error_nth' with (d := 0) by (rewrite seq_length; exact Hi).
        rewrite seq_nth by exact Hi. reflexivity. }
      exists v. auto.
  - intros (_ & L & H).
    assert (G : forall n a l, List.length l = n ->
      (forall i, i < n -> exists v, nth_error l i = Some v /\
         ev (formula_env nan T table known index (a + i)) e = Ok v) ->
      Forall2 (fun i v => ev (formula_env nan T table known index i) e = Ok v) (seq a n) l).
    { induction n as [|n IH]; intros a [|w l] El Hl; simpl in *; try discriminate; constructor.
      - destruct (Hl 0 ltac:(lia)) as (v & H1 & H2). injection H1 as <-.
        rewrite Nat.add_0_r in H2. exact H2.
      - apply IH; [lia|]. intros i Hi. destruct (Hl (S i) ltac:(lia)) as (v & H1 & H2).
        exists v. rewrite Nat.add_succ_r in H2. auto. }
    apply (G T 0 rows L H).
Qed.

(** A variable alone. *)
Theorem formula_variable : forall (nan : V) T table known index s t col rows,
  dget table s = Some col ->
  eval_formula_table op1 op2 nan T table known index (ESym (SVar s t)) = Ok rows <->
  List.length rows = T /\
  forall i, i < T ->
    nth_error rows i = Some (if (0 <=? Z.of_nat i - t)%Z && (Z.of_nat i - t <? Z.of_nat T)%Z
                             then col (Z.to_nat (Z.of_nat i - t)) else nan).
Proof.
  intros nan T table known index s t col rows Hc. rewrite formula_rows.
  assert (E : forall i, ev (formula_env nan T table known index i) (ESym (SVar s t))
    = Ok (if (0 <=? Z.of_nat i - t)%Z && (Z.of_nat i - t <? Z.of_nat T)%Z
          then col (Z.to_nat (Z.of_nat i - t)) else nan)).
  { intros i. simpl. rewrite Hc. reflexivity. }
  split.
  - intros (_ & L & H). split; [exact L|]. intros i Hi. destruct (H i Hi) as (v & H1 & H2).
    rewrite E in H2. injection H2 as <-. exact H1.
  - intros (L & H). split; [|split; [exact L|]].
    + intros u w Hu. simpl in Hu. injection Hu as <- <-. exact (dget_In_key _ _ _ Hc).
    + intros i Hi. eexists. split; [exact (H i Hi)|apply E].
Qed.

(** *** definitions *)
Lemma str_in_spec : forall s l, str_in s l = true <-> In s l.
Proof.
  clear op1 op2.
  intros s l. unfold str_in. rewrite existsb_exists. split.
  - intros (x & H & E). apply String.eqb_eq in E. subst x. exact H.
  - intros H. exists s. split; [exact H|apply String.eqb_refl].
Qed.

Lemma expr_symbols_mentions : forall (e : expr V) x, In x (expr_symbols e) <-> mentions e x.
Proof.
  clear op1 op2.
  induction e as [c|y|f a IH|f a IHa b IHb]; intros x; simpl; try tauto.
  - apply IH.
  - rewrite in_app_iff, IHa, IHb. tauto.
Qed.

Lemma check_all_ok : forall f l, check_all f l = Ok tt <-> forall x, In x l -> f x = Ok tt.
Proof.
  clear op1 op2.
  intros f. induction l as [|x l IH]; simpl.
  - split; [contradiction|reflexivity].
  - destruct (f x) as [[]|e] eqn:E; cbn [bind].
    + rewrite IH. split; intros H.
      * intros y [<-|Hy]; [exact E|exact (H y Hy)].
      * intros y Hy. apply H. right. exact Hy.
    + split; [discriminate|]. intros H. rewrite (H x (or_introl eq_refl)) in E. discriminate.
Qed.

Theorem definitions_accepted : forall lines vars params auxs defs,
  read_definitions vars params lines = Ok (auxs, defs) <->
  auxs = map (fun l => fst (fst l)) lines /\
  defs = map (fun l : string * Z * expr V => (fst (fst l), snd l)) lines /\
  forall i line, nth_error lines i = Some line ->
    right_line (vars ++ map (fun l => fst (fst l)) (firstn i lines)) params line.
Proof.
  clear op1 op2.
  induction lines as [|[[name date] rhs] lines IH]; intros vars params auxs defs; simpl.
  - split.
    + intros H. injection H as <- <-. split; [reflexivity|split; [reflexivity|]].
      intros [|i] line E; discriminate.
    + intros (-> & -> & _). reflexivity.
  - assert (R : right_line vars params (name, date, rhs) <->
       str_in name vars = false /\ Z.eqb date 0 = true /\
        check_all (check_parameter vars params) (expr_symbols rhs) = Ok tt /\
        check_all (check_variable vars) (expr_symbols rhs) = Ok tt).
    { unfold right_line. rewrite !check_all_ok. rewrite Z.eqb_eq.
      assert (N : str_in name vars = false <-> ~ In name vars).
      { rewrite <- str_in_spec. destruct (str_in name vars); split; congruence. }
      rewrite N. split.
      - intros (A & B & C & D). split; [exact A|split; [exact B|split]].
        + intros [p|v t] Hx; [|reflexivity]. apply expr_symbols_mentions in Hx.
          destruct (C p Hx) as [C1 C2]. simpl.
          destruct (str_in p vars) eqn:E; [apply str_in_spec in E; contradiction|].
          apply str_in_spec in C1. rewrite C1. reflexivity.
        + intros [p|v t] Hx; [reflexivity|]. apply expr_symbols_mentions in Hx.
          simpl. specialize (D v t Hx). apply str_in_spec in D. rewrite D. reflexivity.
      - intros (A & B & C & D). split; [exact A|split; [exact B|split]].
        + intros p Hp. apply expr_symbols_mentions in Hp. specialize (C _ Hp). simpl in C.
          destruct (str_in p vars) eqn:E; [discriminate|].
          destruct (str_in p params) eqn:E'; [|discriminate]. split; [apply str_in_spec; exact E'|].
          intros K. apply str_in_spec in K. congruence.
        + intros v t Hv. apply expr_symbols_mentions in Hv. specialize (D _ Hv). simpl in D.
          destruct (str_in v vars) eqn:E; [apply str_in_spec; exact E|discriminate]. }
    assert (L : (forall i line, nth_error ((name, date, rhs) :: lines) i = Some line ->
         right_line (vars ++ map (fun l => fst (fst l)) (firstn i ((name, date, rhs) :: lines))) params line)
       <-> right_line vars params (name, date, rhs) /\
           forall i line, nth_error lines i = Some line ->
             right_line ((vars ++ [name]) ++ map (fun l => fst (fst l)) (firstn i lines)) params line).
    { split.
      - intros H. split.
        + specialize (H 0 _ eq_refl). simpl in H. rewrite app_nil_r in H. exact H.
        + intros i line E. specialize (H (S i) line E). simpl in H. rewrite <- app_assoc. exact H.
      - intros [A B] [|i] line E.
        + injection E as <-. simpl. rewrite app_nil_r. exact A.
        + specialize (B i line E). rewrite <- app_assoc in B. exact B. }
    rewrite L, R. clear L R.
    destruct (str_in name vars); [split; [discriminate|intros (_ & _ & (A & _) & _); discriminate]|].
    destruct (Z.eqb date 0); simpl;
      [|split; [discriminate|intros (_ & _ & (_ & A & _) & _); discriminate]].
    destruct (check_all (check_parameter vars params) (expr_symbols rhs)) as [[]|]; cbn [bind];
      [|split; [discriminate|intros (_ & _ & (_ & _ & A & _) & _); discriminate]].
    destruct (check_all (check_variable vars) (expr_symbols rhs)) as [[]|]; cbn [bind];
      [|split; [discriminate|intros (_ & _ & (_ & _ & _ & A) & _); discriminate]].
    destruct (read_definitions (vars ++ [name]) params lines) as [[a d]|] eqn:E; cbn [bind fst snd].
    + apply IH in E. destruct E as (-> & -> & E). split.
      * intros H. injection H as <- <-. repeat split; try reflexivity. exact E.
      * intros (-> & -> & _). reflexivity.
    + split; [discriminate|]. intros (_ & _ & _ & H).
      assert (C : read_definitions (vars ++ [name]) params lines
                  = Ok (map (fun l => fst (fst l)) lines, map (fun l => (fst (fst l), snd l)) lines))
        by (apply IH; auto).
      congruence.
Qed.


Lemma definitions_order : forall (lines : list (string * Z * expr V)) vars params t,
  (forall i line, nth_error lines i = Some line ->
     right_line (vars ++ map (fun l => fst (fst l)) (firstn i lines)) params line) ->
  (forall l, In l lines -> ~ In (fst (fst l)) vars) /\
  NoDup (map (fun l => fst (fst l)) lines) /\
  triangular (map (fun l => (SVar (fst (fst l)) t, time_shift t (snd l))) lines).
Proof.
  clear op1 op2.
  induction lines as [|[[name date] rhs] lines IH]; intros vars params t H; simpl.
  - split; [contradiction|split; [constructor|exact I]].
  - assert (A := H 0 _ eq_refl). simpl in A. rewrite app_nil_r in A.
    destruct A as (A1 & A2 & A3 & A4).
    destruct (IH (vars ++ [name]) params t) as (B1 & B2 & B3).
    { intros i line E. specialize (H (S i) line E). simpl in H. rewrite <- app_assoc. exact H. }
    split; [|split; [|split]].
    + intros l [<-|Hl]; [exact A1|]. intros C. apply (B1 l Hl). apply in_or_app. left. exact C.
    + constructor; [|exact B2]. intros C. apply in_map_iff in C. destruct C as (l & E & Hl).
      apply (B1 l Hl). rewrite E. apply in_or_app. right. left. reflexivity.
    + intros y Hy M. destruct (mentions_shift t _ _ M) as (z & Hz & Ez).
      assert (K : exists n, y = SVar n t /\ ~ In n vars).
      { destruct Hy as [<-|Hy]; [exists name; auto|]. rewrite map_map in Hy. simpl in Hy.
        apply in_map_iff in Hy. destruct Hy as (l & <- & Hl). exists (fst (fst l)).
        split; [reflexivity|]. intros C. apply (B1 l Hl). apply in_or_app. left. exact C. }
      destruct K as (n & -> & K). symmetry in Ez. apply shift_sym_var in Ez. subst z.
      exact (K (A4 _ _ Hz)).
    + exact B3.
Qed.

Theorem definitions_triangular : forall (lines : list (string * Z * expr V)) vars params auxs defs t,
  read_definitions vars params lines = Ok (auxs, defs) ->
  NoDup (dkeys defs) /\
  triangular (map (fun d => (SVar (fst d) t, time_shift t (snd d))) defs).
Proof.
  clear op1 op2.
  intros lines vars params auxs defs t H. apply definitions_accepted in H.
  destruct H as (_ & -> & H). destruct (definitions_order lines vars params t H) as (_ & A & B).
  unfold dkeys. rewrite !map_map. simpl. auto.
Qed.

Theorem formula_lead : forall (nan : V) T table known index s col rows i,
  dget table s = Some col ->
  eval_formula_table op1 op2 nan T table known index (ESym (SVar s 1)) = Ok rows ->
  S i < T -> nth_error rows (S i) = Some (col i).
Proof.
  intros nan T table known index s col rows i Hc H Hi.
  apply (formula_variable _ _ _ _ _ _ _ _ _ Hc) in H. destruct H as [_ H].
  rewrite (H (S i) Hi).
  replace (Z.of_nat (S i) - 1)%Z with (Z.of_nat i) by lia. rewrite Nat2Z.id.
  assert (E : (0 <=? Z.of_nat i)%Z && (Z.of_nat i <? Z.of_nat T)%Z = true).
  { apply andb_true_iff. split; [apply Z.leb_le|apply Z.ltb_lt]; lia. }
  rewrite E. reflexivity.
Qed.

(** A sorting which refuses what is not already sorted meets [sorts]. *)
Definition sorted_already (l : list (sym * expr V)) : bool :=
  (fix go l := match l with
   | [] => true
   | (x, e) :: r =>
       forallb (fun y => negb (if in_dec sym_dec y (expr_symbols e) then true else false))
         (x :: map fst r) && go r
   end) l.
Definition check_sorted (l : list (sym * expr V)) : res (list (sym * expr V)) :=
  if sorted_already l then Ok l else Err ExcValue.
Lemma check_sorted_sorts : sorts check_sorted.
Proof.
  clear op1 op2.
  intros l l' H. unfold check_sorted in H. destruct (sorted_already l) eqn:E; [|discriminate].
  injection H as <-. split; [apply Permutation_refl|].
  induction l as [|[x e] l IH]; simpl in *; [exact I|].
  rewrite !andb_true_iff in E. destruct E as [[E1 E2] E3]. split; [|apply IH; exact E3].
  intros y Hy M. apply expr_symbols_mentions in M.
  assert (F : (if in_dec sym_dec y (expr_symbols e) then true else false) = false).
  { destruct Hy as [<-|Hy].
    - destruct (in_dec sym_dec x (expr_symbols e)); [discriminate|reflexivity].
    - rewrite forallb_forall in E2. specialize (E2 y Hy).
      destruct (in_dec sym_dec y (expr_symbols e)); [discriminate|reflexivity]. }
  destruct (in_dec sym_dec y (expr_symbols e)); [discriminate|contradiction].
Qed.

End S.

(** A way to check [distinct_symbols]. *)
Lemma distinct_check : forall symbols : dict (list string),
  NoDup (concat (map snd symbols)) -> distinct_symbols symbols.
Proof.
  induction symbols as [|[g0 l0] symbols IH]; intros ND g i g' i' s (l & D & E) (l' & D' & E').
  - discriminate.
  - simpl in ND, D, D'. destruct (NoDup_app_inv _ _ ND) as (N1 & N2 & N3).
    assert (T : forall h m j, dget symbols h = Some m -> nth_error m j = Some s ->
                In s (concat (map snd symbols))).
    { intros h m j Hm Hj. apply in_concat. exists m. split; [|exact (nth_error_In _ _ Hj)].
      apply in_map_iff. exists (h, m). split; [reflexivity|]. apply dget_In. exact Hm. }
    destruct (String.eqb g g0) eqn:Eg; destruct (String.eqb g' g0) eqn:Eg'.
    + apply String.eqb_eq in Eg, Eg'. subst g g'. injection D as <-. injection D' as <-.
      split; [reflexivity|]. rewrite NoDup_nth_error in N1. apply N1; [|congruence].
      apply nth_error_Some. congruence.
    + injection D as <-. exfalso. apply (N3 s (nth_error_In _ _ E)). exact (T _ _ _ D' E').
    + injection D' as <-. exfalso. apply (N3 s (nth_error_In _ _ E')). exact (T _ _ _ D E).
    + apply (IH N2 g i g' i' s); [exists l|exists l']; auto.
Qed.
