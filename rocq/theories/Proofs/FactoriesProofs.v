(** Proofs about Model/Factories.v *)
From Coq Require Import String List Bool ZArith Lia Permutation DecimalString DecimalNat Decimal.
From Verif Require Import Base.Prelude Base.Dict Spec.CompilerMisc Model.Factories Spec.Factories.
Import ListNotations.
Open Scope string_scope.
Open Scope list_scope.

Section S.
Context {V : Type}.
Variable op1 : string -> V -> res V.
Variable op2 : string -> V -> V -> res V.
Notation ev := (eval op1 op2).

Lemma eval_ext : forall (e : expr V) r r', (forall x, mentions e x -> r x = r' x) -> ev r e = ev r' e.
Proof.
  induction e as [c|x|f a IH|f a IHa b IHb]; intros r r' H; simpl.
  - reflexivity.
  - rewrite (H x); [reflexivity|reflexivity].
  - rewrite (IH r r'); auto.
  - rewrite (IHa r r'), (IHb r r'); [reflexivity| |]; intros x Hx; apply H; simpl; auto.
Qed.

Lemma eval_shift : forall k (e : expr V) r, ev r (time_shift k e) = ev (later k r) e.
Proof.
  induction e as [c|x|f a IH|f a IHa b IHb]; intros r; simpl.
  - reflexivity.
  - destruct x; reflexivity.
  - rewrite IH. reflexivity.
  - rewrite IHa, IHb. reflexivity.
Qed.

Lemma mentions_shift : forall k (e : expr V) x,
  mentions (time_shift k e) x -> exists y, mentions e y /\ x = shift_sym k y.
Proof.
  induction e as [c|z|f a IH|f a IHa b IHb]; intros x H; simpl in *.
  - contradiction.
  - exists z. split; [reflexivity|]. symmetry. exact H.
  - auto.
  - destruct H as [H|H]; [destruct (IHa x H) as (y & A & B)|destruct (IHb x H) as (y & A & B)];
      exists y; auto.
Qed.

Lemma set_env_same : forall (r : @env V) x v, set_env r x v x = Some v.
Proof. intros. unfold set_env. destruct (sym_dec x x); congruence. Qed.
Lemma set_env_other : forall (r : @env V) x v y, y <> x -> set_env r x v y = r y.
Proof. intros. unfold set_env. destruct (sym_dec y x); congruence. Qed.

(** *** definitions *)
Lemma definitions_sound : forall (l : list (sym * expr V)) r r',
  NoDup (map fst l) -> triangular l -> run_definitions op1 op2 r l = Ok r' ->
  (forall x, ~ In x (map fst l) -> r' x = r x) /\
  (forall x e, In (x, e) l -> exists v, ev r' e = Ok v /\ r' x = Some v).
Proof.
  induction l as [|[x e] l IH]; intros r r' ND T H; simpl in *.
  - inversion H; subst. split; [reflexivity|contradiction].
  - inversion ND as [|? ? N1 N2]; subst. destruct T as [T1 T2].
    destruct (ev r e) as [v|] eqn:E; [|discriminate]. cbn [bind] in H.
    destruct (IH _ _ N2 T2 H) as [A B].
    assert (K : forall y, y <> x -> ~ In y (map fst l) -> r' y = r y).
    { intros y H1 H2. rewrite (A y H2). apply set_env_other. exact H1. }
    split.
    + intros y Hy. apply K; intros C; apply Hy; [left; congruence|right; exact C].
    + intros y f [E1|Hin].
      * injection E1 as <- <-. exists v. split.
        { rewrite <- E. apply eval_ext. intros z Hz.
          assert (~ In z (x :: map fst l)) by (intros C; exact (T1 z C Hz)).
          apply K; simpl in *; [intros ->|]; tauto. }
        { rewrite (A x N1). apply set_env_same. }
      * exact (B y f Hin).
Qed.

Lemma definitions_complete : forall (l : list (sym * expr V)) r sigma,
  NoDup (map fst l) -> triangular l ->
  (forall x, ~ In x (map fst l) -> sigma x = r x) ->
  (forall x e, In (x, e) l -> exists v, ev sigma e = Ok v /\ sigma x = Some v) ->
  exists r', run_definitions op1 op2 r l = Ok r' /\ forall x, r' x = sigma x.
Proof.
  induction l as [|[x e] l IH]; intros r sigma ND T A B; simpl in *.
  - exists r. split; [reflexivity|]. intros x. symmetry. apply A. tauto.
  - inversion ND as [|? ? N1 N2]; subst. destruct T as [T1 T2].
    destruct (B x e (or_introl eq_refl)) as (v & E & S).
    assert (E' : ev r e = Ok v).
    { rewrite <- E. apply eval_ext. intros z Hz. symmetry. apply A. intros C. exact (T1 z C Hz). }
    rewrite E'. cbn [bind]. apply IH; [exact N2|exact T2| |].
    + intros y Hy. destruct (sym_dec y x) as [->|Ne].
      * rewrite set_env_same. exact S.
      * rewrite set_env_other by exact Ne. apply A. intros [C|C]; [congruence|tauto].
    + intros y f Hf. apply B. right. exact Hf.
Qed.

(** *** content *)
Lemma content_spec : forall keep (l : list (sym * expr V)) r outs,
  (keep = true -> forall x e y f, In (x, e) l -> In (y, f) l -> ~ mentions f x) ->
  run_content op1 op2 keep r l = Ok outs <->
  Forall2 (fun c v => ev r (snd c) = Ok v) l outs.
Proof.
  intros keep l. induction l as [|[x e] l IH]; intros r outs Hk; simpl.
  - split; intros H; [inversion H; constructor|inversion H; reflexivity].
  - assert (E : forall v, run_content op1 op2 keep (if keep then set_env r x v else r) l = Ok outs <->
       Forall2 (fun c w => ev r (snd c) = Ok w) l outs).
    { intros v. rewrite IH.
      - assert (P : forall c, In c l -> ev (if keep then set_env r x v else r) (snd c) = ev r (snd c)).
        { intros [y f] Hin. simpl. apply eval_ext. intros z Hz. destruct keep; [|reflexivity].
          apply set_env_other. intros ->.
          exact (Hk eq_refl x e y f (or_introl eq_refl) (or_intror Hin) Hz). }
        clear - P. revert outs. induction l as [|c l IH]; intros outs.
        + split; intros H; inversion H; constructor.
        + split; intros H; inversion H; subst; constructor.
          * rewrite <- P; [assumption|left; reflexivity].
          * apply IH; [intros; apply P; right; assumption|assumption].
          * rewrite P; [assumption|left; reflexivity].
          * apply IH; [intros; apply P; right; assumption|assumption].
      - intros Kt a b c d H1 H2. apply (Hk Kt a b c d); right; assumption. }
    clear E. split.
    + intros H. destruct (ev r e) as [v|] eqn:Ev; [|discriminate]. cbn [bind] in H.
      destruct (run_content op1 op2 keep (if keep then set_env r x v else r) l) as [vs|] eqn:Ec;
        [|discriminate].
      cbn [bind] in H. injection H as <-. constructor; [exact Ev|].
      assert (Hk' : keep = true -> forall x0 e0 y f, In (x0, e0) l -> In (y, f) l -> ~ mentions f x0).
      { intros Kt a b c d H1 H2. apply (Hk Kt a b c d); right; assumption. }
      apply (IH _ _ Hk') in Ec.
      assert (P : forall c, In c l -> ev (if keep then set_env r x v else r) (snd c) = ev r (snd c)).
      { intros [y f] Hin. simpl. apply eval_ext. intros z Hz. destruct keep; [|reflexivity].
        apply set_env_other. intros ->.
        exact (Hk eq_refl x e y f (or_introl eq_refl) (or_intror Hin) Hz). }
      clear - P Ec. induction Ec as [|c w l vs H1 H2 IH2]; constructor.
      * rewrite <- P; [assumption|left; reflexivity].
      * apply IH2. intros; apply P; right; assumption.
    + intros H. inversion H as [|? v ? vs Hv Hvs]; subst. simpl in Hv. rewrite Hv. cbn [bind].
      assert (Hk' : keep = true -> forall x0 e0 y f, In (x0, e0) l -> In (y, f) l -> ~ mentions f x0).
      { intros Kt a b c d H1 H2. apply (Hk Kt a b c d); right; assumption. }
      assert (P : forall c, In c l -> ev (if keep then set_env r x v else r) (snd c) = ev r (snd c)).
      { intros [y f] Hin. simpl. apply eval_ext. intros z Hz. destruct keep; [|reflexivity].
        apply set_env_other. intros ->.
        exact (Hk eq_refl x e y f (or_introl eq_refl) (or_intror Hin) Hz). }
      assert (Ec : run_content op1 op2 keep (if keep then set_env r x v else r) l = Ok vs).
      { apply (IH _ _ Hk'). clear - P Hvs. induction Hvs as [|c w l vs H1 H2 IH2]; constructor.
        - rewrite P; [assumption|left; reflexivity].
        - apply IH2. intros; apply P; right; assumption. }
      rewrite Ec. reflexivity.
Qed.

(** *** unpacking *)
Lemma unpack_sound : forall names v (r r' : @env V), NoDup names -> unpack names v r = Ok r' ->
  (forall i x, nth_error names i = Some x -> exists w, nth_error v i = Some w /\ r' x = Some w) /\
  (forall x, ~ In x names -> r' x = r x).
Proof.
  induction names as [|n names IH]; intros v r r' ND H; simpl in H.
  - inversion H; subst. split; [|reflexivity]. intros [|i] x E; discriminate.
  - destruct v as [|w v]; [discriminate|]. inversion ND as [|? ? N1 N2]; subst.
    destruct (IH _ _ _ N2 H) as [A B]. split.
    + intros [|i] x E; simpl in E.
      * injection E as <-. exists w. split; [reflexivity|]. rewrite (B n N1). apply set_env_same.
      * destruct (A i x E) as (u & H1 & H2). exists u. split; assumption.
    + intros x Hx. rewrite B by (intros C; apply Hx; right; exact C).
      apply set_env_other. intros ->. apply Hx. left. reflexivity.
Qed.

Lemma unpack_complete : forall names v (r : @env V),
  (forall i x, nth_error names i = Some x -> exists w, nth_error v i = Some w) ->
  exists r', unpack names v r = Ok r'.
Proof.
  induction names as [|n names IH]; intros v r H; simpl.
  - exists r. reflexivity.
  - destruct v as [|w v].
    + destruct (H 0 n eq_refl) as (u & E). discriminate.
    + apply IH. intros i x E. exact (H (S i) x E).
Qed.

Lemma NoDup_app_inv : forall {A} (l l' : list A), NoDup (l ++ l') ->
  NoDup l /\ NoDup l' /\ forall x, In x l -> ~ In x l'.
Proof.
  induction l as [|a l IH]; intros l' H; simpl in *.
  - repeat split; [constructor|exact H|contradiction].
  - inversion H as [|? ? H1 H2]; subst. destruct (IH _ H2) as (A1 & A2 & A3).
    repeat split; [|exact A2|].
    + constructor; [|exact A1]. intros C. apply H1. apply in_or_app. left. exact C.
    + intros x [->|Hx]; [|exact (A3 x Hx)]. intros C. apply H1. apply in_or_app. right. exact C.
Qed.

Lemma unpack_all_sound : forall groups args (r r' : @env V), NoDup (concat groups) ->
  unpack_all groups args r = Ok r' ->
  List.length args = List.length groups /\
  (forall j g i x, nth_error groups j = Some g -> nth_error g i = Some x ->
     exists a w, nth_error args j = Some a /\ nth_error a i = Some w /\ r' x = Some w) /\
  (forall x, ~ In x (concat groups) -> r' x = r x).
Proof.
  induction groups as [|g groups IH]; intros args r r' ND H; simpl in *; destruct args as [|a args];
    try discriminate.
  - inversion H; subst. split; [reflexivity|split; [|reflexivity]].
    intros [|j] g i x E; discriminate.
  - destruct (unpack g a r) as [r1|] eqn:E; [|discriminate]. cbn [bind] in H.
    destruct (NoDup_app_inv _ _ ND) as (N1 & N2 & N3).
    destruct (IH _ _ _ N2 H) as (L & A & B). destruct (unpack_sound _ _ _ _ N1 E) as [C D].
    split; [simpl; lia|split].
    + intros [|j] g' i x E1 E2; simpl in E1.
      * injection E1 as <-. destruct (C i x E2) as (w & H1 & H2). exists a, w.
        split; [reflexivity|split; [exact H1|]]. rewrite B; [exact H2|].
        apply N3. apply nth_error_In with i. exact E2.
      * destruct (A j g' i x E1 E2) as (b & w & H1 & H2 & H3). exists b, w. auto.
    + intros x Hx. rewrite B, D; [reflexivity| |]; intros K; apply Hx; apply in_or_app; tauto.
Qed.

Lemma unpack_all_complete : forall groups args (r : @env V),
  List.length args = List.length groups ->
  (forall j g i x, nth_error groups j = Some g -> nth_error g i = Some x ->
     exists a w, nth_error args j = Some a /\ nth_error a i = Some w) ->
  exists r', unpack_all groups args r = Ok r'.
Proof.
  induction groups as [|g groups IH]; intros args r L H; destruct args as [|a args];
    simpl in *; try discriminate.
  - exists r. reflexivity.
  - destruct (unpack_complete g a r) as (r1 & E).
    { intros i x Ei. destruct (H 0 g i x eq_refl Ei) as (b & w & H1 & H2).
      injection H1 as <-. exists w. exact H2. }
    rewrite E. cbn [bind]. apply IH; [lia|].
    intros j g' i x E1 E2. exact (H (S j) g' i x E1 E2).
Qed.

(** *** dictionaries *)
Lemma sset_new : forall {X} (d : list (sym * X)) k v, ~ In k (map fst d) -> sset d k v = d ++ [(k, v)].
Proof.
  clear op1 op2 V. intros X. induction d as [|[k' v'] d IH]; intros k v H; simpl in *; [reflexivity|].
  destruct (sym_dec k k') as [->|N]; [tauto|]. rewrite IH; tauto.
Qed.

Lemma sdict_nodup : forall {X} (l : list (sym * X)), NoDup (map fst l) -> sdict l = l.
Proof.
  clear op1 op2 V. intros X l H. unfold sdict.
  enough (G : forall l d, NoDup (map fst (d ++ l)) ->
     fold_left (fun d0 e => sset d0 (fst e) (snd e)) l d = d ++ l) by exact (G l [] H).
  clear. induction l as [|[k v] l IH]; intros d H; simpl.
  - rewrite app_nil_r. reflexivity.
  - assert (E : map fst (d ++ (k, v) :: l) = map fst d ++ k :: map fst l)
      by (rewrite map_app; reflexivity).
    rewrite sset_new.
    + rewrite IH; rewrite <- app_assoc; [reflexivity|exact H].
    + rewrite E in H. apply NoDup_remove_2 in H. intros C. apply H. apply in_or_app. tauto.
Qed.

Lemma dset_new : forall {X} (d : dict X) k v, ~ In k (map fst d) -> dset d k v = d ++ [(k, v)].
Proof.
  clear op1 op2 V. intros X. induction d as [|[k' v'] d IH]; intros k v H; simpl in *; [reflexivity|].
  destruct (String.eqb k k') eqn:E; [apply String.eqb_eq in E; subst; tauto|].
  rewrite IH; tauto.
Qed.

Lemma map_fst_combine : forall {A B} (l : list A) (l' : list B),
  List.length l <= List.length l' -> map fst (combine l l') = l.
Proof.
  clear op1 op2 V. induction l as [|a l IH]; intros [|b l'] H; simpl in *; try lia; [reflexivity|reflexivity|].
  f_equal. apply IH. lia.
Qed.
Lemma map_snd_combine : forall {A B} (l : list A) (l' : list B),
  List.length l' <= List.length l -> map snd (combine l l') = l'.
Proof.
  clear op1 op2 V. induction l as [|a l IH]; intros [|b l'] H; simpl in *; try lia; [reflexivity|reflexivity|].
  f_equal. apply IH. lia.
Qed.

Lemma make_arguments_snd : forall sp args,
  NoDup (map snd (sp_eqs sp)) -> List.length args = List.length (sp_eqs sp) ->
  map snd (make_arguments sp args) = args.
Proof.
  clear op1 op2 V. intros sp args H L. unfold make_arguments.
  assert (G : forall (l : list (string * list sym)) d, NoDup (map fst (d ++ l)) ->
     fold_left (fun d0 e => dset d0 (fst e) (snd e)) l d = d ++ l).
  { induction l as [|[k v] l IH]; intros d H0; simpl.
    - rewrite app_nil_r. reflexivity.
    - assert (E : map fst (d ++ (k, v) :: l) = map fst d ++ k :: map fst l)
        by (rewrite map_app; reflexivity).
      rewrite dset_new.
      + rewrite IH; rewrite <- app_assoc; [reflexivity|exact H0].
      + rewrite E in H0. apply NoDup_remove_2 in H0. intros C. apply H0. apply in_or_app. tauto. }
  rewrite G.
  - simpl. apply map_snd_combine. rewrite map_length. lia.
  - simpl. rewrite map_fst_combine by (rewrite map_length; lia). exact H.
Qed.

Lemma map_res_ok : forall {A B} (f : A -> res B) l l', map_res f l = Ok l' ->
  Forall2 (fun a b => f a = Ok b) l l'.
Proof.
  intros A B f. induction l as [|a l IH]; intros l' H; simpl in H.
  - inversion H. constructor.
  - destruct (f a) as [b|] eqn:E; [|discriminate]. cbn [bind] in H.
    destruct (map_res f l) as [bs|]; [|discriminate]. cbn [bind] in H. injection H as <-.
    constructor; [exact E|]. apply IH. reflexivity.
Qed.

Lemma Forall2_nth : forall {A B} (P : A -> B -> Prop) l l', Forall2 P l l' ->
  forall i b, nth_error l' i = Some b -> exists a, nth_error l i = Some a /\ P a b.
Proof.
  intros A B P l l' H. induction H as [|a b l l' H1 H2 IH]; intros [|i] c E; simpl in *;
    try discriminate.
  - injection E as <-. exists a. auto.
  - exact (IH i c E).
Qed.
Lemma Forall2_nth_l : forall {A B} (P : A -> B -> Prop) l l', Forall2 P l l' ->
  forall i a, nth_error l i = Some a -> exists b, nth_error l' i = Some b /\ P a b.
Proof.
  intros A B P l l' H. induction H as [|a b l l' H1 H2 IH]; intros [|i] c E; simpl in *;
    try discriminate.
  - injection E as <-. exists b. auto.
  - exact (IH i c E).
Qed.
Lemma Forall2_len : forall {A B} (P : A -> B -> Prop) l l', Forall2 P l l' ->
  List.length l = List.length l'.
Proof. intros A B P l l' H. induction H; simpl; congruence. Qed.

(** *** the chosen specifications *)
Definition place (e : string * Z * string) : string * Z :=
  (fst (fst e), if fst (fst e) =? "parameters" then 0%Z else snd (fst e)).

Lemma chosen_ok : forall eq_type sp, chosen_spec eq_type = Some sp ->
  NoDup (map snd (sp_eqs sp)) /\ NoDup (map place (sp_eqs sp)) /\
  Forall (fun e => fst (fst e) <> "auxiliaries") (sp_eqs sp) /\
  match sp_target sp with Some (g, _) => g <> "auxiliaries" | None => True end.
Proof.
  clear op1 op2 V. intros q sp. unfold chosen_spec, recipes.
  repeat match goal with |- context [if ?b then _ else _] => destruct b end;
    intros H; try discriminate; injection H as <-; vm_compute;
    repeat split; repeat constructor; simpl; try (intuition discriminate); try discriminate.
Qed.

Lemma to_uint_not_nil : forall i, Nat.to_uint i <> Nil.
Proof.
  intros i C. assert (C' := C). apply (f_equal Nat.of_uint) in C'.
  rewrite Unsigned.of_to in C'. simpl in C'. subst i. discriminate.
Qed.

Lemma out_name_inj : forall i j, out_name i = out_name j -> i = j.
Proof.
  intros i j H. unfold out_name in H. simpl in H. injection H as H.
  assert (E : NilZero.uint_of_string (NilZero.string_of_uint (Nat.to_uint i))
              = NilZero.uint_of_string (NilZero.string_of_uint (Nat.to_uint j))) by congruence.
  rewrite !NilZero.usu in E by apply to_uint_not_nil.
  injection E as E. rewrite <- (Unsigned.of_to i), <- (Unsigned.of_to j). congruence.
Qed.

End S.
