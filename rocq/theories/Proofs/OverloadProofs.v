(** Overloaded functions. *)
From Coq Require Import String List Arith Bool Lia.
From Verif.Base Require Import Prelude Dict.
From Verif.Model Require Import Overload.
From Verif.Spec Require Import Overload.
Import ListNotations.

Lemma onat_eqb_eq : forall a b, onat_eqb a b = true <-> a = b.
Proof.
  intros [x|] [y|]; simpl; try (split; congruence).
  rewrite Nat.eqb_eq. split; congruence.
Qed.
Lemma param_eqb_eq : forall a b, param_eqb a b = true <-> a = b.
Proof.
  intros [n1 a1 d1] [n2 a2 d2]; unfold param_eqb; simpl.
  rewrite !andb_true_iff, String.eqb_eq, !onat_eqb_eq. split; [intros [[-> ->] ->]; reflexivity|intros H; inversion H; auto].
Qed.
Lemma params_eqb_eq : forall a b, params_eqb a b = true <-> a = b.
Proof.
  induction a as [|x a IH]; intros [|y b]; simpl; try (split; congruence).
  rewrite andb_true_iff, param_eqb_eq, IH. split; [intros [-> ->]; reflexivity|intros H; inversion H; auto].
Qed.
Lemma osig_eqb_eq : forall a b, osig_eqb a b = true <-> a = b.
Proof.
  intros [p1 r1] [p2 r2]; unfold osig_eqb; simpl.
  rewrite andb_true_iff, params_eqb_eq, onat_eqb_eq. split; [intros [-> ->]; reflexivity|intros H; inversion H; auto].
Qed.

Section Proofs.
  Variable V : Type.
  Variable holds : nat -> V -> res bool.
  Notation table := (table V).
  Notation func := (func V).

  (** ** Registration *)
  Lemma insert_new : forall (t : table) f, ~ In (f_sig f) (map fst t) -> insert V t f = t ++ [(f_sig f, f)].
  Proof.
    induction t as [|[s g] r IH]; intros f H; simpl in *; [reflexivity|].
    destruct (osig_eqb s (f_sig f)) eqn:E; [apply osig_eqb_eq in E; intuition|].
    rewrite IH by intuition. reflexivity.
  Qed.
  Definition entries (fs : list func) : table := map (fun f => (f_sig f, f)) fs.
  Lemma entries_keys : forall fs, map fst (entries fs) = map f_sig fs.
  Proof. intros. unfold entries. rewrite map_map. reflexivity. Qed.
  Definition bound (ns : namespace V) (name : string) (fs : list func) : Prop :=
    dget ns name = match fs with [] => None | _ => Some (OverloadObj V (entries fs)) end.

  Lemma insert_entries : forall fs f, NoDup (map f_sig (fs ++ [f])) -> insert V (entries fs) f = entries (fs ++ [f]).
  Proof.
    intros fs f H. rewrite insert_new.
    - unfold entries. rewrite map_app. reflexivity.
    - rewrite entries_keys. rewrite map_app in H. simpl in H. apply NoDup_remove_2 in H. rewrite app_nil_r in H. exact H.
  Qed.
  Lemma bound_snoc : forall ns name fs f, NoDup (map f_sig (fs ++ [f])) ->
    dget ns name = Some (OverloadObj V (insert V (entries fs) f)) -> bound ns name (fs ++ [f]).
  Proof.
    intros ns name fs f H E. unfold bound. rewrite insert_entries in E by exact H. rewrite E.
    destruct fs; reflexivity.
  Qed.
  Lemma NoDup_app_l : forall A (a b : list A), NoDup (a ++ b) -> NoDup a.
  Proof. induction a as [|x a IH]; intros b H; constructor; inversion H; subst; [rewrite in_app_iff in *; tauto|]. eapply IH; eassumption. Qed.

  Lemma run_bound : forall name l ns fs ns',
    bound ns name fs -> Forall (keeps V name) l -> NoDup (map f_sig (fs ++ registered V name l)) ->
    run_stmts V ns l = Ok ns' -> bound ns' name (fs ++ registered V name l).
  Proof.
    intros name l; induction l as [|s l IH]; intros ns fs ns' B K N E.
    - simpl in *. inversion E; subst. rewrite app_nil_r. exact B.
    - inversion K as [|? ? K1 K2]; subst. simpl in E.
      destruct (run_stmt V ns s) as [ns1|e] eqn:E1; [|discriminate E]. simpl in E.
      assert (D : forall f, registered V name (s :: l) = f :: registered V name l ->
                 bound ns1 name (fs ++ [f]) -> bound ns' name (fs ++ registered V name (s :: l))).
      { intros f R B1. rewrite R. rewrite R in N.
        replace (fs ++ f :: registered V name l) with ((fs ++ [f]) ++ registered V name l) in * by (rewrite <- app_assoc; reflexivity).
        eapply IH; eassumption. }
      assert (D0 : registered V name (s :: l) = registered V name l ->
                   bound ns1 name fs -> bound ns' name (fs ++ registered V name (s :: l))).
      { intros R B1. rewrite R. rewrite R in N. eapply IH; eassumption. }
      assert (N1 : forall f, registered V name (s :: l) = f :: registered V name l -> NoDup (map f_sig (fs ++ [f]))).
      { intros f R. rewrite R in N.
        replace (fs ++ f :: registered V name l) with ((fs ++ [f]) ++ registered V name l) in N by (rewrite <- app_assoc; reflexivity).
        rewrite map_app in N. eapply NoDup_app_l; eassumption. }
      destruct s as [f|f|n f]; simpl in E1, K1.
      + apply D0; [reflexivity|]. inversion E1; subst. unfold bound in *. rewrite dget_dset_other by congruence. exact B.
      + inversion E1; subst; clear E1. destruct (String.eqb (f_name f) name) eqn:E2.
        * apply (D f); [simpl; rewrite E2; reflexivity|].
          apply String.eqb_eq in E2. subst name.
          apply bound_snoc; [apply N1; simpl; rewrite String.eqb_refl; reflexivity|].
          rewrite dget_dset_same. unfold overload_new. unfold bound in B. rewrite B. destruct fs; reflexivity.
        * apply D0; [simpl; rewrite E2; reflexivity|].
          unfold bound in *. rewrite dget_dset_other; [exact B|]. intros C; subst. rewrite String.eqb_refl in E2. discriminate.
      + destruct (dget ns n) as [[t|g]|] eqn:E2; try discriminate E1.
        inversion E1; subst; clear E1. destruct (String.eqb n name) eqn:E3.
        * apply (D f); [simpl; rewrite E3; reflexivity|].
          assert (E3' := E3). apply String.eqb_eq in E3. subst n.
          apply bound_snoc; [apply N1; simpl; rewrite E3'; reflexivity|].
          unfold bound in B. rewrite E2 in B. destruct fs as [|f0 fs0]; [discriminate B|]. inversion B; subst.
          destruct (String.eqb name (f_name f)) eqn:E4; [rewrite dget_dset_same; reflexivity|].
          rewrite dget_dset_other; [rewrite dget_dset_same; reflexivity|]. intros C; subst. rewrite String.eqb_refl in E4. discriminate.
        * apply D0; [simpl; rewrite E3; reflexivity|].
          assert (n <> name) by (intros C; subst; rewrite String.eqb_refl in E3; discriminate).
          unfold bound in *.
          assert (f_name f <> name) by (intros C; apply K1 in C; contradiction).
          destruct (String.eqb n (f_name f)); rewrite ?dget_dset_other by congruence; exact B.
  Qed.

  (** ** Binding *)
  Lemma bind_pos_ok : forall ps (args : list V), length args <= length ps ->
    bind_pos V ps args = Ok (combine (map p_name ps) args, skipn (length args) ps).
  Proof.
    induction ps as [|p ps IH]; intros [|a args] H; simpl in *; try reflexivity; [lia|].
    rewrite IH by lia. reflexivity.
  Qed.
  Lemma bind_pos_too_many : forall ps (args : list V), length ps < length args -> bind_pos V ps args = Err ExcType.
  Proof.
    induction ps as [|p ps IH]; intros [|a args] H; simpl in *; try lia; [reflexivity|].
    rewrite IH by lia. reflexivity.
  Qed.
  Lemma bind_kw_spec : forall ps (kw : dict V),
    (forall p, In p ps -> p_default p <> None \/ exists v, dget kw (p_name p) = Some v) ->
    exists d, bind_kw V ps kw = Ok d /\
      forall x, dget d x = (if existsb (fun p => String.eqb x (p_name p)) ps then dget kw x else None).
  Proof.
    induction ps as [|p ps IH]; intros kw H; simpl.
    - exists []. split; reflexivity.
    - destruct (IH kw) as (d & E & S); [intros; apply H; right; assumption|].
      destruct (dget kw (p_name p)) as [v|] eqn:G.
      + exists ((p_name p, v) :: d). rewrite E. split; [reflexivity|]. intros x. simpl.
        destruct (String.eqb x (p_name p)) eqn:X; simpl; [apply String.eqb_eq in X; subst; congruence|]. apply S.
      + destruct (H p (or_introl eq_refl)) as [D|[v D]]; [|congruence].
        destruct (p_default p); [|congruence]. exists d. split; [exact E|]. intros x. rewrite S.
        destruct (String.eqb x (p_name p)) eqn:X; simpl; [|reflexivity].
        apply String.eqb_eq in X; subst. rewrite G. destruct (existsb _ ps); reflexivity.
  Qed.

  Lemma nth_error_skipn : forall A k (l : list A) i, nth_error (skipn k l) i = nth_error l (k + i).
  Proof. induction k as [|k IH]; intros [|x l] i; simpl; try reflexivity; [destruct i; reflexivity|apply IH]. Qed.

  Lemma dget_combine : forall names (args : list V) i x v, NoDup names ->
    nth_error names i = Some x -> nth_error args i = Some v -> dget (combine names args) x = Some v.
  Proof.
    induction names as [|y names IH]; intros [|a args] [|i] x v N H1 H2; simpl in *; try discriminate.
    - inversion H1; inversion H2; subst. rewrite String.eqb_refl. reflexivity.
    - inversion N; subst. destruct (String.eqb x y) eqn:E; [|eapply IH; eassumption].
      apply String.eqb_eq in E. subst. exfalso. apply H3. eapply nth_error_In; eassumption.
  Qed.
  Lemma dget_combine_none : forall names (args : list V) i x, NoDup names ->
    nth_error names i = Some x -> length args <= i -> dget (combine names args) x = None.
  Proof.
    induction names as [|y names IH]; intros [|a args] [|i] x N H1 H2; simpl in *; try discriminate; try reflexivity; [lia|].
    inversion N; subst. destruct (String.eqb x y) eqn:E; [|eapply IH; [eassumption..|lia]].
    apply String.eqb_eq in E. subst. exfalso. apply H3. eapply nth_error_In; eassumption.
  Qed.
  Lemma dget_app : forall (a b : dict V) x, dget (a ++ b) x = match dget a x with Some v => Some v | None => dget b x end.
  Proof. induction a as [|[y v] a IH]; intros b x; simpl; [reflexivity|]. destruct (String.eqb x y); [reflexivity|apply IH]. Qed.

  Lemma sig_bind_ok : forall s (args : list V) kw, NoDup (map p_name (s_params s)) -> callable_with V s args kw ->
    exists d, sig_bind V s args kw = Ok d /\
      forall i p v, nth_error (s_params s) i = Some p ->
        (receives V (s_params s) args kw i v <-> dget d (p_name p) = Some v).
  Proof.
    intros s args kw N (L & K & M). unfold sig_bind. rewrite bind_pos_ok by exact L. cbn [bind fst snd].
    assert (Hk : forallb (fun k => existsb (fun p => String.eqb k (p_name p)) (skipn (length args) (s_params s))) (dkeys kw) = true).
    { apply forallb_forall. intros k I. destruct (K k I) as (i & p & Hi & E & <-).
      apply existsb_exists. exists p. split; [|apply String.eqb_refl].
      apply (nth_error_In _ (i - length args)). rewrite nth_error_skipn. replace (length args + (i - length args)) with i by lia. exact E. }
    rewrite Hk. destruct (bind_kw_spec (skipn (length args) (s_params s)) kw) as (d & E & S).
    { intros p I. apply In_nth_error in I. destruct I as [j I]. rewrite nth_error_skipn in I. eapply M; [|exact I]. lia. }
    rewrite E. cbn [bind]. eexists; split; [reflexivity|]. intros i p v P.
    rewrite dget_app, S. assert (Pn : nth_error (map p_name (s_params s)) i = Some (p_name p)) by (apply map_nth_error, P).
    destruct (le_lt_dec (length args) i) as [G|G].
    - rewrite (dget_combine_none _ _ _ _ N Pn G).
      assert (X : existsb (fun p0 => String.eqb (p_name p) (p_name p0)) (skipn (length args) (s_params s)) = true).
      { apply existsb_exists. exists p. split; [|apply String.eqb_refl].
        apply (nth_error_In _ (i - length args)). rewrite nth_error_skipn. replace (length args + (i - length args)) with i by lia. exact P. }
      rewrite X. unfold receives. split.
      + intros [C|(_ & p' & P' & D)]; [|congruence]. exfalso.
        assert (i < length args) by (apply nth_error_Some; congruence). lia.
      + intros D. right. split; [exact G|]. exists p. auto.
    - destruct (nth_error args i) as [a|] eqn:A; [|apply nth_error_None in A; lia].
      rewrite (dget_combine _ _ _ _ _ N Pn A). unfold receives. rewrite A. split.
      + intros [C|(C & _)]; [exact C|lia].
      + intros C. left. exact C.
  Qed.

  (** ** Checking the annotations *)
  Definition annots (ps : list param) : list (string * nat) :=
    flat_map (fun p => match p_annot p with Some q => [(p_name p, q)] | None => [] end) ps.
  Lemma all_hold_spec : forall ps (d : dict V),
    (forall p q, In p ps -> p_annot p = Some q -> exists v b, dget d (p_name p) = Some v /\ holds q v = Ok b) ->
    exists b, all_hold V holds (annots ps) d = Ok b /\
      (b = true <-> forall p q, In p ps -> p_annot p = Some q -> exists v, dget d (p_name p) = Some v /\ holds q v = Ok true).
  Proof.
    induction ps as [|p ps IH]; intros d H; simpl.
    - exists true. split; [reflexivity|]. split; [intros _ p q []|reflexivity].
    - destruct (IH d) as (b & E & S); [intros; eapply H; [right|]; eassumption|].
      destruct (p_annot p) as [q|] eqn:A; simpl.
      + destruct (H p q (or_introl eq_refl) A) as (v & b1 & G & Hq). rewrite G, Hq. simpl. destruct b1.
        * exists b. split; [exact E|]. rewrite S. split; intros T.
          -- intros p' q' [<-|I] A'; [|eauto]. rewrite A in A'. inversion A'; subst. eauto.
          -- intros p' q' I A'. eauto.
        * exists false. split; [reflexivity|]. split; [discriminate|]. intros T.
          destruct (T p q (or_introl eq_refl) A) as (v' & G' & H'). congruence.
      + exists b. split; [exact E|]. rewrite S. split; intros T.
        * intros p' q' [<-|I] A'; [congruence|eauto].
        * intros p' q' I A'. eauto.
  Qed.

  Lemma try_one : forall f args kw, distinct_params V f -> checkable V holds f args kw ->
    exists d b, sig_bind V (f_sig f) args kw = Ok d /\ all_hold V holds (annotations V f) d = Ok b /\
      (b = true <-> accepts V holds f args kw).
  Proof.
    intros f args kw N (C & R & A).
    destruct (sig_bind_ok (f_sig f) args kw N C) as (d & E & S).
    destruct (all_hold_spec (s_params (f_sig f)) d) as (b & E2 & S2).
    { intros p q I P. apply In_nth_error in I. destruct I as [i I].
      destruct (A i p q I P) as (v & b & Rv & H). exists v, b. split; [apply (S i p v I), Rv|exact H]. }
    exists d, b. split; [exact E|]. split.
    - unfold annotations. rewrite R, app_nil_r. exact E2.
    - rewrite S2. unfold accepts. split; intros T.
      + intros i p q I P. destruct (T p q (nth_error_In _ _ I) P) as (v & G & H). exists v.
        split; [apply (S i p v I), G|exact H].
      + intros p q I P. apply In_nth_error in I. destruct I as [i I].
        destruct (T i p q I P) as (v & Rv & H). exists v. split; [apply (S i p v I), Rv|exact H].
  Qed.

  Lemma try_all_spec : forall fs args kw,
    Forall (distinct_params V) fs -> Forall (fun f => checkable V holds f args kw) fs ->
    (exists l1 f l2, fs = l1 ++ f :: l2 /\ accepts V holds f args kw /\ (forall g, In g l1 -> ~ accepts V holds g args kw) /\
       try_all V holds (entries fs) args kw = f_run f args kw) \/
    ((forall g, In g fs -> ~ accepts V holds g args kw) /\ try_all V holds (entries fs) args kw = Err dispatch_error).
  Proof.
    induction fs as [|f fs IH]; intros args kw N C; simpl.
    - right. split; [intros g []|reflexivity].
    - inversion N; inversion C; subst. destruct (try_one f args kw H1 H5) as (d & b & E1 & E2 & E3).
      rewrite E1. cbn [bind]. rewrite E2. cbn [bind]. destruct b.
      + left. exists [], f, fs. split; [reflexivity|]. split; [apply E3; reflexivity|]. split; [intros g []|reflexivity].
      + assert (NA : ~ accepts V holds f args kw) by (intros T; apply E3 in T; discriminate).
        destruct (IH args kw H2 H6) as [(l1 & g & l2 & -> & A & B & D)|(A & B)].
        * left. exists (f :: l1), g, l2. split; [reflexivity|]. split; [exact A|]. split; [|exact D].
          intros h [<-|I]; [exact NA|apply B, I].
        * right. split; [|exact B]. intros g [<-|I]; [exact NA|apply A, I].
  Qed.

  Theorem overload_dispatch : forall name ns l ns' args kw,
    dget ns name = None -> Forall (keeps V name) l -> run_stmts V ns l = Ok ns' ->
    NoDup (map f_sig (registered V name l)) -> registered V name l <> [] ->
    Forall (distinct_params V) (registered V name l) ->
    Forall (fun f => checkable V holds f args kw) (registered V name l) ->
    (exists l1 f l2, registered V name l = l1 ++ f :: l2 /\ accepts V holds f args kw /\
       (forall g, In g l2 -> ~ accepts V holds g args kw) /\ call V holds ns' name args kw = f_run f args kw) \/
    ((forall g, In g (registered V name l) -> ~ accepts V holds g args kw) /\
     call V holds ns' name args kw = Err dispatch_error).
  Proof.
    intros name ns l ns' args kw U K E N NE D C.
    assert (B : bound ns' name ([] ++ registered V name l)) by (eapply run_bound; [exact U|eassumption..]).
    simpl in B. unfold bound in B.
    assert (B' : dget ns' name = Some (OverloadObj V (entries (registered V name l)))) by (rewrite B; destruct (registered V name l); congruence).
    unfold call. rewrite B'. unfold call_table.
    replace (rev (entries (registered V name l))) with (entries (rev (registered V name l))) by (unfold entries; rewrite map_rev; reflexivity).
    destruct (try_all_spec (rev (registered V name l)) args kw) as [(l1 & f & l2 & R & A & F & T)|(F & T)].
    - apply Forall_rev, D.
    - apply Forall_rev, C.
    - left. exists (rev l2), f, (rev l1). split.
      + rewrite <- (rev_involutive (registered V name l)), R, rev_app_distr. simpl. rewrite <- app_assoc. reflexivity.
      + split; [exact A|]. split; [|exact T]. intros g I. apply F. apply in_rev. exact I.
    - right. split; [|exact T]. intros g I. apply F. apply -> in_rev. exact I.
  Qed.

  (** ** Signatures defined again *)
  Fixpoint insertf (l : list func) (f : func) : list func :=
    match l with [] => [f] | g :: r => if osig_eqb (f_sig g) (f_sig f) then f :: r else g :: insertf r f end.
  Lemma insert_insertf : forall l f, insert V (entries l) f = entries (insertf l f).
  Proof.
    induction l as [|g r IH]; intros f; [reflexivity|]. cbn [entries map insert insertf].
    destruct (osig_eqb (f_sig g) (f_sig f)) eqn:E; cbn [entries map].
    - apply osig_eqb_eq in E. rewrite E. reflexivity.
    - f_equal. apply IH.
  Qed.
  Definition effective (rs : list func) : list func := fold_left insertf rs [].
  Lemma effective_snoc : forall rs f, effective (rs ++ [f]) = insertf (effective rs) f.
  Proof. intros. unfold effective. rewrite fold_left_app. reflexivity. Qed.
  (** Either the signature is new, or its function is replaced in place. *)
  Lemma insertf_cases : forall l f,
    (~ In (f_sig f) (map f_sig l) /\ insertf l f = l ++ [f]) \/
    (exists a g b, l = a ++ g :: b /\ f_sig g = f_sig f /\ ~ In (f_sig f) (map f_sig a) /\ insertf l f = a ++ f :: b).
  Proof.
    induction l as [|g r IH]; intros f; cbn [insertf map].
    - left. split; [intros []|reflexivity].
    - destruct (osig_eqb (f_sig g) (f_sig f)) eqn:E.
      + apply osig_eqb_eq in E. right. exists [], g, r. repeat split; auto.
      + assert (NE : f_sig g <> f_sig f) by (intros C; apply osig_eqb_eq in C; congruence).
        destruct (IH f) as [(N & ->)|(a & g' & b & -> & S & N & ->)].
        * left. split; [intros [C|C]; auto|reflexivity].
        * right. exists (g :: a), g', b. repeat split; auto. intros [C|C]; auto.
  Qed.
  Lemma insertf_sigs : forall l f, exists r, map f_sig (insertf l f) = map f_sig l ++ r /\
      (r = [] /\ In (f_sig f) (map f_sig l) \/ r = [f_sig f] /\ ~ In (f_sig f) (map f_sig l)).
  Proof.
    intros l f. destruct (insertf_cases l f) as [(N & ->)|(a & g & b & -> & S & N & ->)].
    - exists [f_sig f]. rewrite map_app. auto.
    - exists []. rewrite !map_app. cbn [map]. rewrite S, app_nil_r. split; [reflexivity|]. left. split; [reflexivity|].
      rewrite in_app_iff. right. left. reflexivity.
  Qed.
  Lemma ranked_effective : forall rs, ranked V rs (effective rs).
  Proof.
    induction rs as [|f rs IH] using rev_ind.
    - split; [constructor|]. split; [intros ? []|]. split; [intros ? []|]. intros [|? a] h b g c H; discriminate H.
    - rewrite effective_snoc. destruct IH as (I1 & I2 & I3 & I4). set (l := effective rs) in *.
      destruct (insertf_sigs l f) as (r & Er & Cr).
      split; [|split; [|split]].
      + rewrite Er. destruct Cr as [(-> & _)|(-> & N)]; [rewrite app_nil_r; exact I1|].
        apply NoDup_rev in I1. rewrite <- (rev_involutive (map f_sig l ++ [f_sig f])). apply NoDup_rev.
        rewrite rev_app_distr. cbn. constructor; [rewrite <- in_rev; exact N|exact I1].
      + assert (Ln : forall g, In g l -> f_sig g <> f_sig f -> exists a b, rs ++ [f] = a ++ g :: b /\ ~ In (f_sig g) (map f_sig b)).
        { intros g Ig NE. destruct (I2 g Ig) as (a & b & -> & N). exists a, (b ++ [f]). split; [rewrite <- app_assoc; reflexivity|].
          rewrite map_app, in_app_iff. intros [C|[C|[]]]; auto. }
        assert (Lf : exists a b, rs ++ [f] = a ++ f :: b /\ ~ In (f_sig f) (map f_sig b)) by (exists rs, []; split; [reflexivity|intros []]).
        intros g Hg. destruct (insertf_cases l f) as [(N & E)|(a & g' & b & E0 & S & N & E)]; rewrite E in Hg.
        * rewrite in_app_iff in Hg. destruct Hg as [Hg|[<-|[]]]; [|exact Lf].
          apply Ln; [exact Hg|]. intros C. apply N. rewrite <- C. apply in_map, Hg.
        * rewrite in_app_iff in Hg. rewrite E0, map_app in I1. cbn [map] in I1. apply NoDup_remove_2 in I1.
          rewrite <- map_app, S in I1.
          destruct Hg as [Hg|[<-|Hg]]; [|exact Lf|].
          -- apply Ln; [rewrite E0, in_app_iff; auto|]. intros C. apply I1. rewrite <- C. apply in_map. rewrite in_app_iff. auto.
          -- apply Ln; [rewrite E0, in_app_iff; right; right; exact Hg|]. intros C. apply I1. rewrite <- C. apply in_map. rewrite in_app_iff. auto.
      + intros g Hg. rewrite Er, in_app_iff. rewrite in_app_iff in Hg. destruct Hg as [Hg|[<-|[]]]; [left; apply I3, Hg|].
        destruct Cr as [(_ & I)|(-> & _)]; [left; exact I|right; left; reflexivity].
      + intros a h b g c E.
        assert (E' : map f_sig l ++ r = map f_sig a ++ f_sig h :: map f_sig b ++ f_sig g :: map f_sig c).
        { rewrite <- Er, E, map_app. cbn [map]. rewrite map_app. reflexivity. }
        assert (Sp : forall l' : list func, forall u s v, map f_sig l' = u ++ s :: v ->
                     exists a' x b', l' = a' ++ x :: b' /\ map f_sig a' = u /\ f_sig x = s /\ map f_sig b' = v).
        { induction l' as [|y l' IHl]; intros [|s0 u] s v Q; cbn in Q; try discriminate Q; inversion Q; subst.
          - exists [], y, l'. auto.
          - destruct (IHl u s v H1) as (a' & x & b' & -> & <- & <- & <-). exists (y :: a'), x, b'. auto. }
        destruct Cr as [(-> & _)|(-> & N)].
        * rewrite app_nil_r in E'. destruct (Sp l _ _ _ E') as (a' & x & b' & El & _ & Sx & Eb).
          destruct (Sp b' _ _ _ Eb) as (b1 & y & c1 & -> & _ & Sy & _).
          destruct (I4 a' x b1 y c1 El) as (r1 & f0 & r2 & -> & Q1 & Q2).
          exists r1, f0, (r2 ++ [f]). rewrite <- app_assoc. split; [reflexivity|]. rewrite <- Sy. split; [congruence|exact Q2].
        * destruct c as [|c0 c] using rev_ind; [|clear IHc].
          -- cbn [map] in E'. rewrite app_comm_cons, app_assoc in E'. apply app_inj_tail in E'. destruct E' as (E1 & E2).
             destruct (Sp l _ _ _ E1) as (a' & x & b' & El & _ & Sx & _).
             destruct (I2 x) as (u & v & -> & _); [rewrite El, in_app_iff; right; left; reflexivity|].
             exists u, x, (v ++ [f]). rewrite <- app_assoc. split; [reflexivity|]. split; [exact Sx|].
             rewrite <- E2. intros C. apply N. apply in_map_iff in C. destruct C as (z & <- & Iz). apply I3. rewrite in_app_iff. auto.
          -- rewrite map_app in E'. cbn [map] in E'.
             assert (E'' : map f_sig l ++ [f_sig f] = (map f_sig a ++ f_sig h :: map f_sig b ++ f_sig g :: map f_sig c) ++ [f_sig c0])
               by (rewrite E', <- app_assoc; cbn; rewrite <- app_assoc; reflexivity).
             apply app_inj_tail in E''. destruct E'' as (E1 & _).
             destruct (Sp l _ _ _ E1) as (a' & x & b' & El & _ & Sx & Eb).
             destruct (Sp b' _ _ _ Eb) as (b1 & y & c1 & -> & _ & Sy & _).
             destruct (I4 a' x b1 y c1 El) as (r1 & f0 & r2 & -> & Q1 & Q2).
             exists r1, f0, (r2 ++ [f]). rewrite <- app_assoc. split; [reflexivity|]. rewrite <- Sy. split; [congruence|exact Q2].
  Qed.
  Definition bound2 (ns : namespace V) (name : string) (rs : list func) : Prop :=
    dget ns name = match rs with [] => None | _ => Some (OverloadObj V (entries (effective rs))) end.
  Lemma bound2_snoc : forall ns name rs f, dget ns name = Some (OverloadObj V (insert V (entries (effective rs)) f)) ->
    bound2 ns name (rs ++ [f]).
  Proof.
    intros ns name rs f H. unfold bound2. rewrite insert_insertf, <- effective_snoc in H. rewrite H. destruct rs; reflexivity.
  Qed.
  Lemma run_bound2 : forall name l ns rs ns',
    bound2 ns name rs -> Forall (keeps V name) l -> run_stmts V ns l = Ok ns' -> bound2 ns' name (rs ++ registered V name l).
  Proof.
    intros name l; induction l as [|s l IH]; intros ns rs ns' B K E.
    - simpl in *. inversion E; subst. rewrite app_nil_r. exact B.
    - inversion K as [|? ? K1 K2]; subst. simpl in E.
      destruct (run_stmt V ns s) as [ns1|e] eqn:E1; [|discriminate E]. simpl in E.
      assert (D : forall f, registered V name (s :: l) = f :: registered V name l ->
                 bound2 ns1 name (rs ++ [f]) -> bound2 ns' name (rs ++ registered V name (s :: l))).
      { intros f R B1. rewrite R.
        replace (rs ++ f :: registered V name l) with ((rs ++ [f]) ++ registered V name l) by (rewrite <- app_assoc; reflexivity).
        eapply IH; eassumption. }
      assert (D0 : registered V name (s :: l) = registered V name l ->
                   bound2 ns1 name rs -> bound2 ns' name (rs ++ registered V name (s :: l))).
      { intros R B1. rewrite R. eapply IH; eassumption. }
      destruct s as [f|f|n f]; simpl in E1, K1.
      + apply D0; [reflexivity|]. inversion E1; subst. unfold bound2 in *. rewrite dget_dset_other by congruence. exact B.
      + inversion E1; subst; clear E1. destruct (String.eqb (f_name f) name) eqn:E2.
        * apply (D f); [simpl; rewrite E2; reflexivity|].
          apply String.eqb_eq in E2. subst name. apply bound2_snoc.
          rewrite dget_dset_same. unfold overload_new. unfold bound2 in B. rewrite B. destruct rs; reflexivity.
        * apply D0; [simpl; rewrite E2; reflexivity|].
          unfold bound2 in *. rewrite dget_dset_other; [exact B|]. intros C; subst. rewrite String.eqb_refl in E2. discriminate.
      + destruct (dget ns n) as [[t|g]|] eqn:E2; try discriminate E1.
        inversion E1; subst; clear E1. destruct (String.eqb n name) eqn:E3.
        * apply (D f); [simpl; rewrite E3; reflexivity|].
          apply String.eqb_eq in E3. subst n. apply bound2_snoc.
          unfold bound2 in B. rewrite E2 in B. destruct rs as [|f0 rs0]; [discriminate B|]. inversion B; subst.
          destruct (String.eqb name (f_name f)) eqn:E4; [rewrite dget_dset_same; reflexivity|].
          rewrite dget_dset_other; [rewrite dget_dset_same; reflexivity|]. intros C; subst. rewrite String.eqb_refl in E4. discriminate.
        * apply D0; [simpl; rewrite E3; reflexivity|].
          assert (n <> name) by (intros C; subst; rewrite String.eqb_refl in E3; discriminate).
          unfold bound2 in *.
          assert (f_name f <> name) by (intros C; apply K1 in C; contradiction).
          destruct (String.eqb n (f_name f)); rewrite ?dget_dset_other by congruence; exact B.
  Qed.
  Theorem overload_redefinition : forall name ns l ns' args kw,
    dget ns name = None -> Forall (keeps V name) l -> run_stmts V ns l = Ok ns' -> registered V name l <> [] ->
    Forall (distinct_params V) (registered V name l) ->
    Forall (fun f => checkable V holds f args kw) (registered V name l) ->
    exists eff, ranked V (registered V name l) eff /\
      ((exists l1 f l2, eff = l1 ++ f :: l2 /\ accepts V holds f args kw /\
          (forall g, In g l2 -> ~ accepts V holds g args kw) /\ call V holds ns' name args kw = f_run f args kw) \/
       ((forall g, In g eff -> ~ accepts V holds g args kw) /\ call V holds ns' name args kw = Err dispatch_error)).
  Proof.
    intros name ns l ns' args kw U K E NE D C.
    assert (B : bound2 ns' name ([] ++ registered V name l)) by (eapply run_bound2; [exact U|eassumption..]).
    simpl in B. unfold bound2 in B. exists (effective (registered V name l)).
    assert (RK := ranked_effective (registered V name l)). split; [exact RK|].
    set (eff := effective (registered V name l)) in *.
    assert (B' : dget ns' name = Some (OverloadObj V (entries eff))) by (rewrite B; destruct (registered V name l); congruence).
    assert (Sub : forall f, In f eff -> In f (registered V name l)).
    { intros f I. destruct RK as (_ & R2 & _). destruct (R2 f I) as (a & b & -> & _). rewrite in_app_iff. right. left. reflexivity. }
    unfold call. rewrite B'. unfold call_table.
    replace (rev (entries eff)) with (entries (rev eff)) by (unfold entries; rewrite map_rev; reflexivity).
    rewrite Forall_forall in D, C.
    destruct (try_all_spec (rev eff) args kw) as [(l1 & f & l2 & R & A & F & T)|(F & T)].
    - apply Forall_forall. intros f I. apply D, Sub. apply in_rev. exact I.
    - apply Forall_forall. intros f I. apply C, Sub. apply in_rev. exact I.
    - left. exists (rev l2), f, (rev l1). split.
      + rewrite <- (rev_involutive eff), R, rev_app_distr. simpl. rewrite <- app_assoc. reflexivity.
      + split; [exact A|]. split; [|exact T]. intros g I. apply F. apply in_rev. exact I.
    - right. split; [|exact T]. intros g I. apply F. apply -> in_rev. exact I.
  Qed.

  (** ** What does not work *)
  (** A return annotation: the function can never be called through the dispatcher. *)
  Lemma overload_return : forall f args kw q, distinct_params V f -> s_return (f_sig f) = Some q ->
    (forall p, In p (s_params (f_sig f)) -> p_name p <> "return"%string) ->
    callable_with V (f_sig f) args kw -> accepts V holds f args kw ->
    call_table V holds (insert V [] f) args kw = Err ExcKey.
  Proof.
    intros f args kw q N R P C A. unfold call_table. cbn [insert rev app try_all].
    destruct (sig_bind_ok (f_sig f) args kw N C) as (d & E & S). rewrite E. cbn [bind].
    unfold annotations. rewrite R.
    assert (Z : forall l, (forall x p, In (x, p) l -> exists v, dget d x = Some v /\ holds p v = Ok true) ->
                dget d "return"%string = None -> all_hold V holds (l ++ [("return"%string, q)]) d = Err ExcKey).
    { induction l as [|[x p] l IH]; intros H1 H2; simpl.
      - rewrite H2. reflexivity.
      - destruct (H1 x p (or_introl eq_refl)) as (v & G & H). rewrite G, H. simpl. apply IH; [|exact H2].
        intros; apply H1; right; assumption. }
    rewrite Z; [reflexivity| |].
    - intros x p I. apply in_flat_map in I. destruct I as (pp & I & J).
      destruct (p_annot pp) as [q'|] eqn:A'; [|destruct J]. destruct J as [J|[]]. inversion J; subst.
      apply In_nth_error in I. destruct I as [i I].
      destruct (A i pp p I A') as (v & Rv & H). exists v. split; [apply (S i pp v I), Rv|exact H].
    - clear - E P. unfold sig_bind in E.
      destruct (bind_pos V (s_params (f_sig f)) args) as [[d1 rest]|e] eqn:E1; [|discriminate E]. cbn [bind fst snd] in E.
      destruct (forallb _ _); [|discriminate E].
      destruct (bind_kw V rest kw) as [d2|e] eqn:E2; [|discriminate E]. cbn [bind] in E. inversion E; subst; clear E.
      assert (Z1 : forall ps (a : list V) d0 r0, bind_pos V ps a = Ok (d0, r0) -> (forall p, In p ps -> p_name p <> "return"%string) ->
                   dget d0 "return"%string = None /\ (forall p, In p r0 -> In p ps)).
      { induction ps as [|p ps IH]; intros [|a0 a] d0 r0 H Q; simpl in H; inversion H; subst; clear H; try (split; [reflexivity|tauto]).
        destruct (bind_pos V ps a) as [[d3 r3]|] eqn:G; [|discriminate H1]. simpl in H1. inversion H1; subst; clear H1.
        destruct (IH a d3 r0 G) as (H1 & H2); [intros; apply Q; right; assumption|].
        split; [|intros; right; apply H2; assumption]. cbn [dget].
        destruct (String.eqb "return" (p_name p)) eqn:X; [|exact H1].
        apply String.eqb_eq in X. exfalso. apply (Q p (or_introl eq_refl)). symmetry. exact X. }
      assert (Z2 : forall ps d0, bind_kw V ps kw = Ok d0 -> (forall p, In p ps -> p_name p <> "return"%string) -> dget d0 "return"%string = None).
      { induction ps as [|p ps IH]; intros d0 H Q; simpl in H; [inversion H; reflexivity|].
        assert (Q' : forall p0, In p0 ps -> p_name p0 <> "return"%string) by (intros; apply Q; right; assumption).
        destruct (dget kw (p_name p)).
        - destruct (bind_kw V ps kw) as [d3|] eqn:G; [|discriminate H]. simpl in H. inversion H; subst. cbn [dget].
          destruct (String.eqb "return" (p_name p)) eqn:X; [|apply IH; auto].
          apply String.eqb_eq in X. exfalso. apply (Q p (or_introl eq_refl)). symmetry. exact X.
        - destruct (p_default p); [|discriminate H]. apply IH; assumption. }
      destruct (Z1 _ _ _ _ E1 P) as (G1 & G2). rewrite dget_app, G1. apply (Z2 rest); [exact E2|]. intros p I. apply P, G2, I.
  Qed.

  (** An overload defined under a name that is already a plain function is dropped. *)
  Lemma overload_shadowed : forall ns f g args kw, f_name f = f_name g ->
    exists ns', run_stmts V ns [DefPlain f; DefOverload g] = Ok ns' /\ call V holds ns' (f_name g) args kw = f_run f args kw.
  Proof.
    intros ns f g args kw H. simpl. unfold overload_new. rewrite H, dget_dset_same.
    eexists. split; [reflexivity|]. unfold call. rewrite dget_dset_same. reflexivity.
  Qed.
End Proofs.

(** Witnesses: values are numbers, predicate 0 accepts everything, predicate 1 accepts numbers above 10. *)
Definition toy_holds (q v : nat) : res bool := match q with O => Ok true | _ => Ok (Nat.ltb 10 v) end.
Definition one_param (annot : option nat) : list param := [{| p_name := "x"; p_annot := annot; p_default := None |}].
Definition fun1 (annot ret : option nat) (v : nat) : func nat :=
  {| f_name := "f"; f_sig := {| s_params := one_param annot; s_return := ret |}; f_run := fun _ _ => Ok v |}.
Definition fun2 (v : nat) : func nat :=
  {| f_name := "f"; f_sig := {| s_params := [{| p_name := "x"; p_annot := Some 0; p_default := None |};
                                             {| p_name := "y"; p_annot := Some 0; p_default := None |}]; s_return := None |};
     f_run := fun _ _ => Ok v |}.

Lemma overload_arity : exists l ns', run_stmts nat [] l = Ok ns' /\
  (exists f, In f (registered nat "f" l) /\ callable_with nat (f_sig f) [5] [] /\ accepts nat toy_holds f [5] []) /\
  call nat toy_holds ns' "f" [5] [] = Err ExcType.
Proof.
  exists [DefOverload (fun1 (Some 0) None 1); DefOverload (fun2 2)]. eexists. split; [reflexivity|]. split; [|reflexivity].
  exists (fun1 (Some 0) None 1). split; [left; reflexivity|]. split.
  - unfold callable_with; simpl. split; [lia|]. split; [intros k []|].
    intros [|[|i]] p H E; simpl in *; try discriminate; lia.
  - intros [|[|i]] p q E A; simpl in *; try discriminate. inversion E; subst. simpl in A. inversion A; subst.
    exists 5. split; [left; reflexivity|reflexivity].
Qed.

(** Redefining a signature keeps its old rank. *)
Lemma overload_redefined : exists f g f' ns',
  run_stmts nat [] [DefOverload f; DefOverload g; DefOverload f'] = Ok ns' /\
  f_name f = "f"%string /\ f_name g = "f"%string /\ f_name f' = "f"%string /\ checkable nat toy_holds f' [20] [] /\
  accepts nat toy_holds f' [20] [] /\ f_run f' [20] [] = Ok 3 /\ call nat toy_holds ns' "f" [20] [] = Ok 2.
Proof.
  exists (fun1 (Some 0) None 1), (fun1 (Some 1) None 2), (fun1 (Some 0) None 3). eexists.
  split; [reflexivity|]. do 3 (split; [reflexivity|]).
  assert (A : accepts nat toy_holds (fun1 (Some 0) None 3) [20] []).
  { intros [|[|i]] p q E A; simpl in *; try discriminate. inversion E; subst. simpl in A. inversion A; subst.
    exists 20. split; [left; reflexivity|reflexivity]. }
  split; [|split; [exact A|split; reflexivity]].
  split; [|split; [reflexivity|]].
  - unfold callable_with; simpl. split; [lia|]. split; [intros k []|]. intros [|[|i]] p H E; simpl in *; try discriminate; lia.
  - intros i p q E B. destruct (A i p q E B) as (v & R & H). exists v, true. auto.
Qed.

(** A non-trivial program meeting the hypotheses of the dispatch theorem. *)
Lemma overload_example : forall v,
  exists l ns', run_stmts nat [] l = Ok ns' /\ Forall (keeps nat "f") l /\ length (registered nat "f" l) = 2 /\
    NoDup (map f_sig (registered nat "f" l)) /\ Forall (distinct_params nat) (registered nat "f" l) /\
    Forall (fun f => checkable nat toy_holds f [v] []) (registered nat "f" l) /\
    call nat toy_holds ns' "f" [v] [] = Ok (if Nat.ltb 10 v then 2 else 1).
Proof.
  intros v. exists [DefOverload (fun1 (Some 0) None 1); DefOverload (fun1 (Some 1) None 2)]. eexists. split; [reflexivity|].
  split; [repeat constructor|]. split; [reflexivity|]. split.
  { simpl. constructor; [intros [H|[]]; inversion H|]. constructor; [intros []|constructor]. }
  split; [repeat constructor; simpl; tauto|]. split.
  - assert (Z : forall q c, checkable nat toy_holds (fun1 (Some q) None c) [v] []).
    { intros q c. split; [|split; [reflexivity|]].
      - unfold callable_with; simpl. split; [lia|]. split; [intros k []|]. intros [|[|i]] p H E; simpl in *; try discriminate; lia.
      - intros [|[|i]] p q' E A; simpl in *; try discriminate. inversion E; subst. simpl in A. inversion A; subst.
        exists v. unfold toy_holds. destruct q'; eexists; (split; [left; reflexivity|reflexivity]). }
    simpl. constructor; [apply Z|]. constructor; [apply Z|constructor].
  - unfold call, call_table. cbn [run_stmts].
    cbn - [Nat.ltb]. unfold toy_holds. cbn [bind]. destruct (Nat.ltb 10 v); reflexivity.
Qed.
