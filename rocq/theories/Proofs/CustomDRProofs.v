(** Rules written as equations. *)
From Coq Require Import String List Bool ZArith Lia Permutation Reals.
From Verif Require Import Base.Prelude Base.Dict Model.Factories Model.DecisionRule Model.CustomDR
  Spec.Factories Spec.CustomDR Proofs.FactoriesProofs.
Import ListNotations.
Open Scope list_scope.

Section P.
Context {V : Type}.
Variable op1 : string -> V -> res V.
Variable op2 : string -> V -> V -> res V.

Lemma eval_sanitize : forall vars (e : expr V) r, eval op1 op2 r (sanitize vars e) = eval op1 op2 (fun x => r (sanitize_sym vars x)) e.
Proof.
  intros vars e r. induction e as [c|x|f a IH|f a IHa b IHb]; cbn [sanitize eval]; try reflexivity.
  - rewrite IH. reflexivity.
  - rewrite IHa, IHb. reflexivity.
Qed.
Lemma mentions_sanitize : forall vars (e : expr V) y, mentions (sanitize vars e) y -> exists x, mentions e x /\ sanitize_sym vars x = y.
Proof.
  intros vars e y. induction e as [c|x|f a IH|f a IHa b IHb]; simpl; intros H.
  - contradiction.
  - exists x. auto.
  - auto.
  - destruct H as [H|H]; [destruct (IHa H) as (x & ? & ?)|destruct (IHb H) as (x & ? & ?)]; exists x; auto.
Qed.

Lemma in_names : forall s l, existsb (String.eqb s) l = true <-> In s l.
Proof.
  intros s l. rewrite existsb_exists. split.
  - intros (x & H & E). apply String.eqb_eq in E. subst. exact H.
  - intros H. exists s. split; [exact H|apply String.eqb_refl].
Qed.
Lemma in_names_ext : forall s l l', (In s l <-> In s l') -> existsb (String.eqb s) l = existsb (String.eqb s) l'.
Proof.
  intros s l l' H. destruct (existsb (String.eqb s) l) eqn:E; symmetry.
  - apply in_names, H, in_names. exact E.
  - destruct (existsb (String.eqb s) l') eqn:E'; [|reflexivity]. apply in_names, H, in_names in E'. congruence.
Qed.
Lemma sanitize_ext : forall l l' (e : expr V), (forall s, In s l <-> In s l') -> sanitize l e = sanitize l' e.
Proof.
  intros l l' e H. induction e as [c|x|f a IH|f a IHa b IHb]; cbn [sanitize]; try congruence.
  f_equal. destruct x as [s|s t]; [|reflexivity]. cbn [sanitize_sym]. rewrite (in_names_ext s l l' (H s)). reflexivity.
Qed.

Lemma kget_in : forall (d : list (ckey * expr V)) k e, NoDup (map fst d) -> (kget d k = Some e <-> In (k, e) d).
Proof.
  induction d as [|[k' v] d IH]; intros k e N; simpl in *; [split; [discriminate|contradiction]|].
  inversion N as [|? ? N1 N2]; subst. destruct (ckey_dec k k') as [->|Ne].
  - split.
    + intros E. left. congruence.
    + intros [E|H]; [congruence|]. exfalso. apply N1. apply in_map_iff. exists (k', e). auto.
  - rewrite IH by exact N2. split; [auto|]. intros [E|H]; [congruence|exact H].
Qed.

Variable cm : cmodel V.
Variable values : list (ckey * expr V).
Hypothesis WF : rule_wf cm values.
Variable reorder : list (sym * expr V) -> res (list (sym * expr V)).
Hypothesis SORTS : sorts reorder.

Notation vars := (cm_exogenous cm ++ cm_states cm ++ defined_names values).

Lemma in_defined : forall y, In y (defined_names values) <-> exists e, In (KName y, e) values.
Proof.
  intros y. unfold defined_names, key_names. rewrite in_flat_map. split.
  - intros ([[s|s t] e] & H & I); simpl in I; [|contradiction]. destruct I as [->|[]]. exists e. exact H.
  - intros (e & H). exists (KName y, e). split; [exact H|simpl; auto].
Qed.
Lemma in_preamble : forall y e, In (KName y, e) (custom_preamble cm values) <-> In (KName y, e) values /\ ~ In y (cm_controls cm).
Proof.
  intros y e. unfold custom_preamble. rewrite filter_In. cbn [fst not_control]. rewrite negb_true_iff. split; intros (H & E); split; auto.
  - intros I. apply in_names in I. congruence.
  - destruct (existsb (String.eqb y) (cm_controls cm)) eqn:X; [|reflexivity]. apply in_names in X. contradiction.
Qed.
Lemma preamble_keys : forall k e, In (k, e) (custom_preamble cm values) -> exists y, k = KName y.
Proof.
  intros k e H. unfold custom_preamble in H. apply filter_In in H. destruct H as (H & _).
  destruct WF as (_ & _ & W). destruct (W k) as (y & -> & _); [|eauto]. apply in_map_iff. exists (k, e). auto.
Qed.

Lemma NoDup_filter_keys : forall (l : list (ckey * expr V)) (f : ckey * expr V -> bool), NoDup (map fst l) -> NoDup (map fst (filter f l)).
Proof.
  induction l as [|x l IH]; intros f N; simpl; [constructor|]. inversion N as [|? ? N1 N2]; subst.
  destruct (f x); simpl; [|auto]. constructor; [|auto]. intros C. apply N1. apply in_map_iff in C.
  destruct C as (y & E & I). apply filter_In in I. apply in_map_iff. exists y. tauto.
Qed.
Lemma preamble_nodup : NoDup (map (fun e : ckey * expr V => key_sym (fst e)) (custom_preamble cm values)).
Proof.
  assert (N : NoDup (map fst (custom_preamble cm values))) by (apply NoDup_filter_keys; apply WF).
  pose proof preamble_keys as K. revert N K. generalize (custom_preamble cm values) as l.
  induction l as [|[k v] l IH]; intros N K; simpl in *; [constructor|]. inversion N as [|? ? N1 N2]; subst. constructor.
  - intros C. apply in_map_iff in C. destruct C as ([k' v'] & E & I). simpl in E.
    destruct (K k v (or_introl eq_refl)) as (y & ->). destruct (K k' v' (or_intror I)) as (y' & ->).
    simpl in E. injection E as ->. apply N1. apply in_map_iff. exists (KName y, v'). auto.
  - apply IH; [exact N2|]. intros k' v' I. apply (K k' v'). auto.
Qed.

Section Rule.
Variable eqs : list (expr V).
Hypothesis EQS : custom_equations cm values = Ok eqs.

Lemma control_defined : forall c, In c (cm_controls cm) -> exists e, In (KName c, e) values.
Proof.
  intros c Hc. unfold custom_equations in EQS. apply map_res_ok in EQS.
  destruct (In_nth_error _ _ Hc) as (i & Hi). destruct (Forall2_nth_l _ _ _ EQS i c Hi) as (e & _ & E). cbv beta in E.
  destruct (kget values (KName c)) as [e'|] eqn:G; [|discriminate]. exists e'. apply kget_in in G; [exact G|apply WF].
Qed.
Lemma vars_same : forall s, In s (custom_variables cm values) <-> In s vars.
Proof.
  intros s. unfold custom_variables. rewrite !in_app_iff.
  assert (A : In s (key_names (custom_preamble cm values)) <-> (exists e, In (KName s, e) values) /\ ~ In s (cm_controls cm)).
  { unfold key_names. rewrite in_flat_map. split.
    - intros ([[y|y t] e] & H & I); simpl in I; [|contradiction]. destruct I as [->|[]]. apply in_preamble in H. destruct H. eauto.
    - intros ((e & H) & N). exists (KName s, e). split; [apply in_preamble; auto|simpl; auto]. }
  rewrite A, in_defined. destruct (in_dec string_dec s (cm_controls cm)) as [I|I].
  - pose proof (control_defined s I). tauto.
  - tauto.
Qed.

Lemma not_both : forall x, In x vars -> ~ In x (cm_parameters cm).
Proof.
  destruct WF as (N & _ & W). intros x H P. rewrite !in_app_iff in H.
  destruct (NoDup_app_inv _ _ N) as (_ & N2 & D1). destruct (NoDup_app_inv _ _ N2) as (_ & N3 & D2).
  destruct (NoDup_app_inv _ _ N3) as (_ & _ & D3).
  destruct H as [H|[H|H]].
  - apply (D1 x H). rewrite !in_app_iff. auto.
  - apply (D2 x H). rewrite !in_app_iff. auto.
  - apply in_defined in H. destruct H as (e & H). destruct (W (KName x)) as (y & E & _ & _ & Y).
    { apply in_map_iff. exists (KName x, e). auto. }
    injection E as <-. contradiction.
Qed.

(** The environment made by a reading of the names and conversely. *)
Definition env_of (sigma : string -> option V) : @env V := fun x =>
  match x with
  | SPar s => if existsb (String.eqb s) (cm_parameters cm) then sigma s else None
  | SVar s t => if (t =? 0)%Z && existsb (String.eqb s) vars then sigma s else None
  end.

Lemma eval_env_of : forall sigma r e,
  (forall x v, sigma x = Some v -> In x vars \/ In x (cm_parameters cm)) ->
  (forall x, r x = env_of sigma x) ->
  eval op1 op2 r (sanitize (custom_variables cm values) e) = value_of op1 op2 cm values sigma e.
Proof.
  intros sigma r e D H. rewrite (sanitize_ext _ vars e vars_same), eval_sanitize. apply eval_ext. intros x _.
  rewrite H. destruct x as [s|s t]; cbn [sanitize_sym read_name].
  - destruct (existsb (String.eqb s) vars) eqn:E; cbn [env_of].
    + rewrite E. reflexivity.
    + destruct (existsb (String.eqb s) (cm_parameters cm)) eqn:P; [reflexivity|].
      destruct (sigma s) as [v|] eqn:S; [|reflexivity]. exfalso. destruct (D s v S) as [I|I]; apply in_names in I; congruence.
  - reflexivity.
Qed.

Variable pre : list (sym * expr V).
Hypothesis PRE : reorder (preamble_str cm values) = Ok pre.

Lemma pre_in : forall x e, In (x, e) pre <->
  exists y e0, In (KName y, e0) values /\ ~ In y (cm_controls cm) /\ x = SVar y 0 /\ e = sanitize (custom_variables cm values) e0.
Proof.
  intros x e. destruct (SORTS _ _ PRE) as (P & _).
  assert (A : In (x, e) pre <-> In (x, e) (preamble_str cm values)).
  { split; apply Permutation_in; [apply Permutation_sym|]; exact P. }
  rewrite A. unfold preamble_str. rewrite sdict_nodup.
  - rewrite in_map_iff. split.
    + intros ([k e0] & E & I). cbn [fst snd] in E. injection E as <- <-. destruct (preamble_keys k e0 I) as (y & ->).
      apply in_preamble in I. exists y, e0. tauto.
    + intros (y & e0 & I & N & -> & ->). exists (KName y, e0). split; [reflexivity|]. apply in_preamble. auto.
  - rewrite map_map. cbn [fst]. apply preamble_nodup.
Qed.
Lemma pre_ok : NoDup (map fst pre) /\ triangular pre.
Proof.
  destruct (SORTS _ _ PRE) as (P & T). split; [|exact T].
  apply (Permutation_NoDup (Permutation_map fst P)). unfold preamble_str. rewrite sdict_nodup.
  - rewrite map_map. cbn [fst]. apply preamble_nodup.
  - rewrite map_map. cbn [fst]. apply preamble_nodup.
Qed.
Lemma pre_keys : forall x, In x (map fst pre) <-> exists y e, x = SVar y 0 /\ In (KName y, e) values /\ ~ In y (cm_controls cm).
Proof.
  intros x. rewrite in_map_iff. split.
  - intros ([x' e] & E & I). simpl in E. subst x'. apply pre_in in I. destruct I as (y & e0 & I & N & -> & _). eauto.
  - intros (y & e & -> & I & N). exists (SVar y 0, sanitize (custom_variables cm values) e). split; [reflexivity|].
    apply pre_in. exists y, e. auto.
Qed.

Notation groups := (map snd (custom_arguments cm)).
Lemma groups_nodup : NoDup (concat groups).
Proof.
  cbn [custom_arguments map snd concat]. rewrite app_nil_r. destruct WF as (N & _ & _).
  destruct (NoDup_app_inv _ _ N) as (N1 & N2 & D1). destruct (NoDup_app_inv _ _ N2) as (N3 & N4 & D2).
  destruct (NoDup_app_inv _ _ N4) as (_ & N5 & _).
  assert (I1 : forall l, NoDup l -> NoDup (map (fun e => SVar e 0) l)).
  { intros l. induction 1 as [|x l H ND IH]; simpl; constructor; [|exact IH]. intros C. apply in_map_iff in C.
    destruct C as (y & E & I). injection E as ->. contradiction. }
  assert (I2 : forall l, NoDup l -> NoDup (map SPar l)).
  { intros l. induction 1 as [|x l H ND IH]; simpl; constructor; [|exact IH]. intros C. apply in_map_iff in C.
    destruct C as (y & E & I). injection E as ->. contradiction. }
  assert (A : forall (l l' : list sym), NoDup l -> NoDup l' -> (forall x, In x l -> ~ In x l') -> NoDup (l ++ l')).
  { intros l l' Hl Hl' D. induction Hl as [|x l H ND IH]; simpl; [exact Hl'|]. constructor.
    - intros C. apply in_app_or in C. destruct C as [C|C]; [contradiction|]. exact (D x (or_introl eq_refl) C).
    - apply IH. intros y Hy. apply D. right. exact Hy. }
  apply A; [apply I1; exact N1| |].
  - apply A; [apply I1; exact N3|apply I2; exact N5|]. intros x Hx Hy. apply in_map_iff in Hx, Hy.
    destruct Hx as (a & <- & _), Hy as (b & E & _). discriminate.
  - intros x Hx Hy. apply in_map_iff in Hx. destruct Hx as (a & <- & Ha). apply in_app_or in Hy. destruct Hy as [Hy|Hy].
    + apply in_map_iff in Hy. destruct Hy as (b & E & Hb). injection E as ->. apply (D1 a Ha). apply in_or_app. auto.
    + apply in_map_iff in Hy. destruct Hy as (b & E & _). discriminate.
Qed.

Variable m s : list V.
Notation rdom sigma := (forall x v, sigma x = Some v -> In x vars \/ In x (cm_parameters cm)).

Lemma names_domain : forall sigma, rule_names op1 op2 cm values m s sigma -> rdom sigma.
Proof.
  intros sigma (_ & _ & _ & _ & D) x v E. rewrite !in_app_iff, in_defined. destruct (D x v E) as [H|[H|[H|(e & H & _)]]]; eauto 6.
Qed.

Notation run := (bind (unpack_all groups [m; s; cm_p cm] (fun _ => None)) (fun r => run_definitions op1 op2 r pre)).

Lemma run_sound : forall r', run = Ok r' -> exists sigma, rule_names op1 op2 cm values m s sigma /\ forall x, r' x = env_of sigma x.
Proof.
  intros r' H. destruct (unpack_all groups [m; s; cm_p cm] (fun _ => None)) as [r|] eqn:U; [|discriminate]. cbn [bind] in H.
  destruct (unpack_all_sound _ _ _ _ groups_nodup U) as (_ & A & B).
  destruct pre_ok as (ND & T). destruct (definitions_sound op1 op2 _ _ _ ND T H) as (C & D).
  assert (G : forall x, r' x <> None ->
      (exists y, x = SPar y /\ In y (cm_parameters cm)) \/
      (exists y, x = SVar y 0 /\ (In y (cm_exogenous cm) \/ In y (cm_states cm))) \/
      (exists y e, x = SVar y 0 /\ In (KName y, e) values /\ ~ In y (cm_controls cm))).
  { intros x Hx. destruct (in_dec sym_dec x (map fst pre)) as [I|I]; [right; right; apply pre_keys; exact I|].
    rewrite (C x I) in Hx. destruct (in_dec sym_dec x (concat groups)) as [J|J]; [|rewrite (B x J) in Hx; congruence].
    cbn [custom_arguments map snd concat] in J. rewrite app_nil_r, !in_app_iff in J.
    destruct J as [J|[J|J]]; apply in_map_iff in J; destruct J as (y & <- & J); eauto 8. }
  set (sigma := fun x => if existsb (String.eqb x) vars then r' (SVar x 0) else r' (SPar x)).
  assert (E : forall x, r' x = env_of sigma x).
  { intros [y|y t]; cbn [env_of]; unfold sigma.
    - destruct (existsb (String.eqb y) (cm_parameters cm)) eqn:P.
      + destruct (existsb (String.eqb y) vars) eqn:Q; [|reflexivity]. exfalso.
        apply in_names in P, Q. exact (not_both y Q P).
      + destruct (r' (SPar y)) eqn:R; [|reflexivity]. exfalso.
        destruct (G (SPar y)) as [(z & F & I)|[(z & F & _)|(z & e & F & _)]]; [congruence| | |]; try discriminate.
        injection F as ->. apply in_names in I. congruence.
    - destruct (t =? 0)%Z eqn:Z0; cbn [andb].
      + apply Z.eqb_eq in Z0. subst t. destruct (existsb (String.eqb y) vars) eqn:Q; [reflexivity|].
        destruct (r' (SVar y 0)) eqn:R; [|reflexivity]. exfalso.
        assert (I : In y vars).
        { destruct (G (SVar y 0)) as [(z & F & _)|[(z & F & I)|(z & e & F & I & _)]]; [congruence|discriminate| |];
            injection F as ->; rewrite !in_app_iff, in_defined; [tauto|eauto]. }
        apply in_names in I. congruence.
      + destruct (r' (SVar y t)) eqn:R; [|reflexivity]. exfalso. apply Z.eqb_neq in Z0. apply Z0.
        destruct (G (SVar y t)) as [(z & F & _)|[(z & F & I)|(z & e & F & I & _)]]; [congruence|discriminate| |];
          injection F as -> ->; reflexivity. }
  assert (RD : rdom sigma).
  { intros x v S. unfold sigma in S. destruct (existsb (String.eqb x) vars) eqn:Q; [left; apply in_names; exact Q|right].
    destruct (G (SPar x)) as [(z & F & I)|[(z & F & _)|(z & e & F & _)]]; [congruence| | |]; try discriminate.
    injection F as ->. exact I. }
  assert (NP : forall y, In y (cm_exogenous cm) \/ In y (cm_states cm) -> ~ In (SVar y 0) (map fst pre)).
  { intros y Hy I. apply pre_keys in I. destruct I as (z & e & F & I & _). injection F as <-.
    destruct WF as (_ & _ & W). destruct (W (KName y)) as (z & F & Y1 & Y2 & _).
    - apply in_map_iff. exists (KName y, e). auto.
    - injection F as <-. tauto. }
  exists sigma. split; [|exact E]. split; [|split; [|split; [|split]]].
  - intros i x Hi. destruct (A 0%nat (map (fun e => SVar e 0) (cm_exogenous cm)) i (SVar x 0) eq_refl) as (a & w & E1 & E2 & E3).
    { rewrite nth_error_map, Hi. reflexivity. }
    simpl in E1. injection E1 as <-. exists w. split; [exact E2|]. unfold sigma.
    assert (Hx : In x (cm_exogenous cm)) by (apply (nth_error_In _ _ Hi)).
    assert (Q : existsb (String.eqb x) vars = true) by (apply in_names; rewrite !in_app_iff; tauto).
    rewrite Q, C; [exact E3|]. apply NP. tauto.
  - intros i x Hi. destruct (A 1%nat (map (fun e => SVar e 0) (cm_states cm)) i (SVar x 0) eq_refl) as (a & w & E1 & E2 & E3).
    { rewrite nth_error_map, Hi. reflexivity. }
    simpl in E1. injection E1 as <-. exists w. split; [exact E2|]. unfold sigma.
    assert (Hx : In x (cm_states cm)) by (apply (nth_error_In _ _ Hi)).
    assert (Q : existsb (String.eqb x) vars = true) by (apply in_names; rewrite !in_app_iff; tauto).
    rewrite Q, C; [exact E3|]. apply NP. tauto.
  - intros i x Hi. destruct (A 2%nat (map SPar (cm_parameters cm)) i (SPar x) eq_refl) as (a & w & E1 & E2 & E3).
    { rewrite nth_error_map, Hi. reflexivity. }
    simpl in E1. injection E1 as <-. exists w. split; [exact E2|]. unfold sigma.
    assert (Hx : In x (cm_parameters cm)) by (apply (nth_error_In _ _ Hi)).
    destruct (existsb (String.eqb x) vars) eqn:Q.
    { apply in_names in Q. exfalso. exact (not_both x Q Hx). }
    rewrite C; [exact E3|]. intros I. apply pre_keys in I. destruct I as (? & ? & F & _). discriminate.
  - intros y e I N. destruct (D (SVar y 0) (sanitize (custom_variables cm values) e)) as (v & E1 & E2).
    { apply pre_in. exists y, e. auto. }
    exists v. rewrite <- (eval_env_of sigma r' e RD E). split; [exact E1|]. unfold sigma.
    assert (Q : existsb (String.eqb y) vars = true) by (apply in_names; rewrite !in_app_iff, in_defined; eauto).
    rewrite Q. exact E2.
  - intros x v S. unfold sigma in S. destruct (existsb (String.eqb x) vars) eqn:Q.
    + destruct (G (SVar x 0)) as [(z & F & _)|[(z & F & I)|(z & e & F & I & N)]]; [congruence|discriminate| |];
        injection F as ->; [tauto|eauto 6].
    + destruct (G (SPar x)) as [(z & F & I)|[(z & F & _)|(z & e & F & _)]]; [congruence| | |]; try discriminate.
      injection F as ->. auto.
Qed.

Lemma run_complete : forall sigma, rule_names op1 op2 cm values m s sigma ->
  exists r', run = Ok r' /\ forall x, r' x = env_of sigma x.
Proof.
  intros sigma N. pose proof (names_domain sigma N) as RD. destruct N as (A1 & A2 & A3 & A4 & A5).
  destruct (unpack_all_complete groups [m; s; cm_p cm] (fun _ => None)) as (r & U).
  { reflexivity. }
  { intros j g i x Hj Hi. destruct j as [|[|[|j]]]; simpl in Hj; try discriminate.
    - injection Hj as <-. rewrite nth_error_map in Hi. destruct (nth_error (cm_exogenous cm) i) as [y|] eqn:Y; [|discriminate].
      destruct (A1 i y Y) as (v & E & _). exists m, v. auto.
    - injection Hj as <-. rewrite nth_error_map in Hi. destruct (nth_error (cm_states cm) i) as [y|] eqn:Y; [|discriminate].
      destruct (A2 i y Y) as (v & E & _). exists s, v. auto.
    - injection Hj as <-. rewrite nth_error_map in Hi. destruct (nth_error (cm_parameters cm) i) as [y|] eqn:Y; [|discriminate].
      destruct (A3 i y Y) as (v & E & _). exists (cm_p cm), v. auto.
    - destruct j; discriminate. }
  rewrite U. cbn [bind]. destruct (unpack_all_sound _ _ _ _ groups_nodup U) as (_ & A & B).
  destruct pre_ok as (ND & T). apply definitions_complete; [exact ND|exact T| |].
  - intros x Hx. destruct (in_dec sym_dec x (concat groups)) as [J|J].
    + cbn [custom_arguments map snd concat] in J. rewrite app_nil_r, !in_app_iff in J.
      destruct J as [J|[J|J]]; apply in_map_iff in J; destruct J as (y & <- & J); destruct (In_nth_error _ _ J) as (i & Hi); cbn [env_of].
      * destruct (A 0%nat (map (fun e => SVar e 0) (cm_exogenous cm)) i (SVar y 0) eq_refl) as (a & w & E1 & E2 & E3).
        { rewrite nth_error_map, Hi. reflexivity. }
        simpl in E1. injection E1 as <-. destruct (A1 i y Hi) as (v & E4 & E5).
        assert (Q : existsb (String.eqb y) vars = true) by (apply in_names; rewrite !in_app_iff; tauto).
        rewrite Q. cbn. congruence.
      * destruct (A 1%nat (map (fun e => SVar e 0) (cm_states cm)) i (SVar y 0) eq_refl) as (a & w & E1 & E2 & E3).
        { rewrite nth_error_map, Hi. reflexivity. }
        simpl in E1. injection E1 as <-. destruct (A2 i y Hi) as (v & E4 & E5).
        assert (Q : existsb (String.eqb y) vars = true) by (apply in_names; rewrite !in_app_iff; tauto).
        rewrite Q. cbn. congruence.
      * destruct (A 2%nat (map SPar (cm_parameters cm)) i (SPar y) eq_refl) as (a & w & E1 & E2 & E3).
        { rewrite nth_error_map, Hi. reflexivity. }
        simpl in E1. injection E1 as <-. destruct (A3 i y Hi) as (v & E4 & E5).
        apply in_names in J. rewrite J. congruence.
    + rewrite (B x J). cbn [custom_arguments map snd concat] in J. rewrite app_nil_r, !in_app_iff in J.
      destruct x as [y|y t]; cbn [env_of].
      * destruct (existsb (String.eqb y) (cm_parameters cm)) eqn:P; [|reflexivity]. exfalso. apply J. right. right.
        apply in_map. apply in_names. exact P.
      * destruct (t =? 0)%Z eqn:Z0; [|reflexivity]. cbn [andb]. apply Z.eqb_eq in Z0. subst t.
        destruct (existsb (String.eqb y) vars) eqn:Q; [|reflexivity].
        destruct (sigma y) as [v|] eqn:S; [|reflexivity]. exfalso.
        destruct (A5 y v S) as [I|[I|[I|(e & I & NC)]]].
        -- apply J. left. apply in_map_iff. eauto.
        -- apply J. right. left. apply in_map_iff. eauto.
        -- apply in_names in Q. exact (not_both y Q I).
        -- apply Hx. apply pre_keys. eauto.
  - intros x e I. apply pre_in in I. destruct I as (y & e0 & I & NC & -> & ->). destruct (A4 y e0 I NC) as (v & E1 & E2).
    exists v. split.
    + rewrite (eval_env_of sigma (env_of sigma) e0 RD (fun _ => eq_refl)). exact E1.
    + cbn [env_of]. assert (Q : existsb (String.eqb y) vars = true) by (apply in_names; rewrite !in_app_iff, in_defined; eauto).
      rewrite Q. exact E2.
Qed.

Variable keep : bool.
Hypothesis UNUSED : keep = true -> controls_unused cm values.

Lemma content_of : forall r' sigma outs, (forall x, r' x = env_of sigma x) -> rdom sigma ->
  (run_content op1 op2 keep r' (sdict (combine (map (fun e => SVar e 0) (cm_controls cm)) (map (sanitize (custom_variables cm values)) eqs))) = Ok outs <->
   Forall2 (fun c v => exists e, In (KName c, e) values /\ value_of op1 op2 cm values sigma e = Ok v) (cm_controls cm) outs).
Proof.
  intros r' sigma outs E RD.
  pose proof (map_res_ok _ _ _ EQS) as F. pose proof (Forall2_len _ _ _ F) as L.
  assert (NDc : NoDup (cm_controls cm)).
  { destruct WF as (N & _ & _). destruct (NoDup_app_inv _ _ N) as (_ & N2 & _). destruct (NoDup_app_inv _ _ N2) as (_ & N3 & _).
    destruct (NoDup_app_inv _ _ N3) as (N4 & _). exact N4. }
  rewrite sdict_nodup.
  2: { rewrite map_fst_combine by (rewrite !map_length; lia). clear - NDc. induction NDc as [|x l H ND IH]; simpl; constructor; [|exact IH].
       intros C. apply in_map_iff in C. destruct C as (y & Ey & I). injection Ey as ->. contradiction. }
  assert (X : forall c e, In (c, e) (combine (cm_controls cm) eqs) -> In (KName c, e) values /\ In c (cm_controls cm)).
  { intros c e I. split; [|apply in_combine_l in I; exact I].
    clear L. clear - F I WF. induction F as [|c0 e0 l l' H F IH]; simpl in I; [contradiction|].
    destruct I as [I|I]; [|auto]. injection I as -> ->. destruct (kget values (KName c)) as [e'|] eqn:G; [|discriminate].
    apply kget_in in G; [|apply WF]. congruence. }
  rewrite content_spec.
  2: { intros Kt x e y f Hx Hy Hm. specialize (UNUSED Kt).
       assert (Q : forall l (l' : list (expr V)) p, In p (combine (map (fun e => SVar e 0) l) (map (sanitize (custom_variables cm values)) l')) ->
                 exists c e0, In (c, e0) (combine l l') /\ p = (SVar c 0, sanitize (custom_variables cm values) e0)).
       { clear. induction l as [|c l IH]; intros [|e l'] p I; simpl in I; try contradiction.
         destruct I as [<-|I]; [exists c, e; simpl; auto|]. destruct (IH l' p I) as (c0 & e0 & I0 & ->). exists c0, e0. simpl. auto. }
       destruct (Q _ _ _ Hx) as (c & e0 & I0 & X0). destruct (Q _ _ _ Hy) as (d & f0 & I1 & Y0).
       injection X0 as -> ->. injection Y0 as -> ->. apply mentions_sanitize in Hm. destruct Hm as (z & M & Z).
       apply X in I0, I1. destruct I0 as (I0 & C0), I1 as (I1 & C1).
       destruct (UNUSED d f0 c I1 C1 C0) as (U1 & U2). destruct z as [z|z t]; cbn [sanitize_sym] in Z.
       - destruct (existsb (String.eqb z) (custom_variables cm values)); [|discriminate]. injection Z as ->. contradiction.
       - injection Z as -> ->. contradiction. }
  clear UNUSED.
  assert (EV : forall e, eval op1 op2 r' (sanitize (custom_variables cm values) e) = value_of op1 op2 cm values sigma e)
    by (intros e; apply eval_env_of; assumption).
  assert (WV : NoDup (map fst values)) by apply WF.
  revert outs X L. clear - F EV WV. induction F as [|c e l l' H F IH]; intros outs X L; simpl.
  - split; intros H; inversion H; constructor.
  - assert (X' : forall c0 e0, In (c0, e0) (combine l l') -> In (KName c0, e0) values /\ In c0 l).
    { intros c0 e0 I. split; [apply (X c0 e0); right; exact I|apply in_combine_l in I; exact I]. }
    assert (Ie : In (KName c, e) values) by (apply (X c e); left; reflexivity).
    split; intros Q; inversion Q as [|? v ? vs Q1 Q2]; subst; constructor.
    + exists e. split; [exact Ie|]. cbn [snd] in Q1. rewrite EV in Q1. exact Q1.
    + apply (IH vs X'); [simpl in L; lia|exact Q2].
    + destruct Q1 as (e' & I' & E'). cbn [snd]. rewrite EV.
      assert (e' = e); [|congruence].
      apply kget_in in I'; [|exact WV]. apply kget_in in Ie; [|exact WV]. congruence.
    + apply (IH vs X'); [simpl in L; lia|exact Q2].
Qed.
End Rule.

(** The compiled function at one point. *)
Theorem custom_point : forall keep r m s outs,
  (keep = true -> controls_unused cm values) -> custom_dr reorder cm values = Ok r ->
  (call op1 op2 keep (cr_fun r) [m; s; cr_p r] = Ok outs <-> rule_value op1 op2 cm values m s outs).
Proof.
  intros keep r m s outs U H. unfold custom_dr, custom_factory in H.
  destruct (custom_equations cm values) as [eqs|] eqn:EQ; [|discriminate]. cbn [bind] in H.
  destruct (reorder (preamble_str cm values)) as [pre|] eqn:PR; [|discriminate]. cbn [bind] in H.
  destruct (cm_discretized cm); [|discriminate]. cbn [bind] in H. destruct (cm_grid cm); [|discriminate].
  cbn [bind] in H. injection H as <-. cbn [cr_fun cr_p]. unfold call. cbn [ff_arguments ff_preamble ff_content].
  split.
  - intros H.
    destruct (unpack_all (map snd (custom_arguments cm)) [m; s; cm_p cm] (fun _ => None)) as [r0|] eqn:UA; [|discriminate]. cbn [bind] in H.
    destruct (run_definitions op1 op2 r0 pre) as [r'|] eqn:RDf; [|discriminate]. cbn [bind] in H.
    destruct (run_sound eqs EQ pre PR m s r') as (sigma & N & E).
    { rewrite UA. cbn [bind]. exact RDf. }
    exists sigma. split; [exact N|]. apply (content_of eqs EQ keep U r' sigma outs E); [|exact H].
    exact (names_domain m s sigma N).
  - intros (sigma & N & Q). destruct (run_complete eqs EQ pre PR m s sigma N) as (r' & H & E).
    destruct (unpack_all (map snd (custom_arguments cm)) [m; s; cm_p cm] (fun _ => None)) as [r0|] eqn:UA; [|discriminate]. cbn [bind] in *.
    rewrite H. cbn [bind]. apply (content_of eqs EQ keep U r' sigma outs E); [|exact Q].
    exact (names_domain m s sigma N).
Qed.

Lemma map_res_iff : forall {A B} (f : A -> res B) l l',
  map_res f l = Ok l' <-> List.length l' = List.length l /\
    forall i a, nth_error l i = Some a -> exists b, nth_error l' i = Some b /\ f a = Ok b.
Proof.
  induction l as [|a l IH]; intros l'; simpl.
  - split.
    + intros H. injection H as <-. split; [reflexivity|]. intros [|i] a; discriminate.
    + intros (H & _). destruct l'; [reflexivity|discriminate].
  - split.
    + intros H. destruct (f a) as [b|] eqn:E; [|discriminate]. cbn [bind] in H.
      destruct (map_res f l) as [bs|] eqn:M; [|discriminate]. cbn [bind] in H. injection H as <-.
      destruct (proj1 (IH bs) eq_refl) as (L & Q). split; [simpl; congruence|]. intros [|i] a' N; simpl in N |- *.
      * injection N as <-. eauto.
      * auto.
    + intros (L & Q). destruct l' as [|b bs]; [discriminate|]. destruct (Q 0%nat a eq_refl) as (b' & E1 & E2).
      simpl in E1. injection E1 as <-. rewrite E2. cbn [bind].
      assert (M : map_res f l = Ok bs).
      { apply IH. split; [simpl in L; congruence|]. intros i a' N. exact (Q (S i) a' N). }
      rewrite M. reflexivity.
Qed.
Lemma nth_error_combine : forall {A B} (l : list A) (l' : list B) i, 
  nth_error (combine l l') i = match nth_error l i, nth_error l' i with Some a, Some b => Some (a, b) | _, _ => None end.
Proof.
  induction l as [|a l IH]; intros [|b l'] [|i]; simpl; try reflexivity.
  - destruct (nth_error l i); reflexivity.
  - apply IH.
Qed.
Lemma nth_error_repeat_some : forall {A} (a : A) n i, (i < n)%nat -> nth_error (repeat a n) i = Some a.
Proof.
  intros A a n i H. rewrite nth_error_nth' with (d := a) by (rewrite repeat_length; exact H). f_equal.
  apply nth_repeat.
Qed.

(** Arrays of points: rows are paired. *)
Theorem custom_rows : forall keep r ms ss outs,
  (keep = true -> controls_unused cm values) -> custom_dr reorder cm values = Ok r ->
  List.length ms = List.length ss ->
  (custom_eval_ms op1 op2 keep r ms ss = Ok outs <->
   List.length outs = List.length ss /\
   forall i m s, nth_error ms i = Some m -> nth_error ss i = Some s ->
     exists o, nth_error outs i = Some o /\ rule_value op1 op2 cm values m s o).
Proof.
  intros keep r ms ss outs U H L. unfold custom_eval_ms.
  assert (B : forall (l : list (list V)), List.length l = List.length ss -> broadcast (List.length ss) l = l).
  { intros [|a [|b l]] E; try reflexivity. rewrite <- E. reflexivity. }
  replace (if (List.length ms =? 1)%nat then List.length ss else List.length ms) with (List.length ss)
    by (destruct (List.length ms =? 1)%nat; congruence).
  rewrite !B by congruence. rewrite L, Nat.eqb_refl. rewrite map_res_iff, combine_length, L, Nat.min_id.
  split; intros (A & Q); split; try exact A.
  - intros i m s Em Es. destruct (Q i (m, s)) as (o & E1 & E2); [rewrite nth_error_combine, Em, Es; reflexivity|].
    exists o. split; [exact E1|]. apply (custom_point keep r m s o U H). exact E2.
  - intros i [m s] E. rewrite nth_error_combine in E. destruct (nth_error ms i) as [m'|] eqn:Em; [|discriminate].
    destruct (nth_error ss i) as [s'|] eqn:Es; [|discriminate]. injection E as -> ->.
    destruct (Q i m s Em Es) as (o & E1 & E2). exists o. split; [exact E1|]. apply (custom_point keep r m s o U H). exact E2.
Qed.
(** One exogenous point for all states. *)
Theorem custom_rows_one : forall keep r m ss outs,
  (keep = true -> controls_unused cm values) -> custom_dr reorder cm values = Ok r ->
  (custom_eval_ms op1 op2 keep r [m] ss = Ok outs <->
   List.length outs = List.length ss /\
   forall i s, nth_error ss i = Some s -> exists o, nth_error outs i = Some o /\ rule_value op1 op2 cm values m s o).
Proof.
  intros keep r m ss outs U H.
  assert (E : custom_eval_ms op1 op2 keep r [m] ss = custom_eval_ms op1 op2 keep r (repeat m (List.length ss)) ss).
  { unfold custom_eval_ms. cbn [List.length Nat.eqb broadcast]. rewrite repeat_length.
    replace (if (List.length ss =? 1)%nat then List.length ss else List.length ss) with (List.length ss)
      by (destruct (List.length ss =? 1)%nat; reflexivity).
    replace (broadcast (List.length ss) (repeat m (List.length ss))) with (repeat m (List.length ss)); [rewrite !repeat_length; reflexivity|].
    destruct ss as [|a [|b l]]; reflexivity. }
  rewrite E. rewrite (custom_rows keep r (repeat m (List.length ss)) ss outs U H (repeat_length _ _)).
  split; intros (A & Q); split; try exact A.
  - intros i s Es. apply (Q i m s); [|exact Es]. apply nth_error_repeat_some. apply nth_error_Some. congruence.
  - intros i m' s Em Es. apply nth_error_In, repeat_spec in Em. subst m'. auto.
Qed.
Theorem custom_rows_mismatch : forall keep (r : custom_rule V) ms ss,
  List.length ms <> List.length ss -> List.length ms <> 1%nat -> List.length ss <> 1%nat ->
  custom_eval_ms op1 op2 keep r ms ss = Err ExcValue.
Proof.
  intros keep r ms ss L A B. unfold custom_eval_ms.
  assert (K : forall n (l : list (list V)), List.length l <> 1%nat -> broadcast n l = l) by (intros n [|a [|b l]] E; simpl in *; congruence).
  rewrite !K by assumption. destruct (Nat.eqb_spec (List.length ms) (List.length ss)); [contradiction|reflexivity].
Qed.

(** Construction needs an equation for each control. *)
Theorem custom_missing : forall c, In c (cm_controls cm) -> ~ In (KName c) (map fst values) -> custom_dr reorder cm values = Err ExcKey.
Proof.
  intros c I N. unfold custom_dr, custom_factory.
  assert (E : custom_equations cm values = Err ExcKey); [|rewrite E; reflexivity].
  unfold custom_equations. induction (cm_controls cm) as [|d l IH]; [contradiction|]. simpl.
  destruct I as [->|I].
  - destruct (kget values (KName c)) as [e|] eqn:G; [|reflexivity]. exfalso. apply N.
    apply kget_in in G; [|apply WF]. apply in_map_iff. exists (KName c, e). auto.
  - destruct (kget values (KName d)); [|reflexivity]. cbn [bind]. rewrite (IH I). reflexivity.
Qed.
End P.

(** Calls on points of reals. *)
Theorem custom_call_point : forall op1 op2 cm values reorder keep r m s o,
  rule_wf cm values -> sorts reorder -> (keep = true -> controls_unused cm values) -> custom_dr reorder cm values = Ok r ->
  (custom_call2 op1 op2 keep r (Pts (P1 m)) (P1 s) = Ok (P1 o) <-> rule_value op1 op2 cm values m s o).
Proof.
  intros op1 op2 cm values reorder keep r m s o WF SO U H. unfold custom_call2, call2.
  rewrite <- (custom_point op1 op2 cm values WF reorder SO keep r m s o U H).
  unfold custom_eval_ms. cbn [List.length Nat.eqb broadcast repeat combine map_res fst snd].
  destruct (call op1 op2 keep (cr_fun r) [m; s; cr_p r]) as [v|]; cbn; split; congruence.
Qed.
Theorem custom_call_index : forall op1 op2 keep r i s, custom_call2 op1 op2 keep r (Idx i) s = Err ExcAttribute.
Proof. intros. destruct s; reflexivity. Qed.
Theorem custom_call_one : forall s, custom_call1 s = Err ExcAttribute.
Proof. intros [p|rows]; reflexivity. Qed.
