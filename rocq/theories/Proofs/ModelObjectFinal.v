(** Exogenous sections, complementarity conditions, and the object of a file. *)
From Coq Require Import Ascii String List Bool Arith ZArith Lia.
From Verif Require Import Base.Prelude Base.Dict Base.Strings Model.CompilerMisc
  Spec.CompilerMisc Proofs.CompilerMiscProofs Model.ModelObject Spec.ModelObject
  Proofs.ModelObjectProofs.
Import ListNotations.
Open Scope string_scope.
Open Scope list_scope.

(** ** Exogenous *)
Lemma lstrip_space : forall a t, all_space a = true -> lstrip (a ++ t)%string = lstrip t.
Proof.
  intros a; induction a as [|x a IH]; intros t H; [reflexivity|].
  simpl in H. apply andb_true_iff in H. destruct H as [H1 H2].
  simpl. rewrite H1. apply IH, H2.
Qed.

Lemma rstrip_all_space : forall b, all_space b = true -> rstrip b = "".
Proof.
  intros b; induction b as [|x b IH]; intros H; [reflexivity|].
  simpl in H. apply andb_true_iff in H. destruct H as [H1 H2].
  simpl. rewrite (IH H2), H1. reflexivity.
Qed.

Lemma lstrip_all_space : forall b, all_space b = true -> lstrip b = "".
Proof.
  intros b H. rewrite <- (append_nil_r b). rewrite lstrip_space by exact H. reflexivity.
Qed.

Lemma rstrip_space : forall t b, all_space b = true -> rstrip (t ++ b)%string = rstrip t.
Proof.
  intros t; induction t as [|x t IH]; intros b H; simpl.
  - apply rstrip_all_space, H.
  - rewrite (IH b H). reflexivity.
Qed.

Lemma rstrip_fixed : forall t, (forall r a, t = (r ++ String a "")%string -> is_space a = false) ->
  rstrip t = t.
Proof.
  intros t; induction t as [|x t IH]; intros H; [reflexivity|].
  simpl. destruct t as [|y t].
  - simpl. rewrite (H "" x eq_refl). reflexivity.
  - rewrite IH.
    + reflexivity.
    + intros r a E. apply (H (String x r) a). simpl. rewrite E. reflexivity.
Qed.

Lemma strip_unique : forall p n, trims_to p n -> strip p = n.
Proof.
  intros p n (a & b & -> & Ha & Hb & [H1 H2]). unfold strip.
  rewrite lstrip_space by exact Ha. destruct n as [|x n].
  - simpl. rewrite lstrip_all_space by exact Hb. reflexivity.
  - change ((String x n ++ b)%string) with (String x (n ++ b)%string). cbn [lstrip].
    rewrite (H1 x n eq_refl).
    change (String x (n ++ b)%string) with ((String x n ++ b)%string).
    rewrite rstrip_space by exact Hb. apply rstrip_fixed, H2.
Qed.

Lemma strip_trims : forall p, trims_to p (strip p).
Proof. intros p. exact (strip_spec p). Qed.

Lemma reads_as_iff : forall key names,
  reads_as key names <-> names = map strip (split_char "," key).
Proof.
  intros key names; split.
  - intros (pieces & Hne & -> & Hc & Hf).
    rewrite split_char_unique by assumption. clear Hne Hc.
    induction Hf as [|p n ps ns Hp Hf IH]; [reflexivity|].
    simpl. rewrite (strip_unique p n Hp), <- IH. reflexivity.
  - intros ->. exists (split_char "," key). split; [apply split_char_not_nil|].
    split; [symmetry; apply split_char_join|]. split; [apply split_char_pieces|].
    generalize (split_char "," key). intros l.
    induction l as [|p l IH]; simpl; constructor; [apply strip_trims|exact IH].
Qed.

Lemma eq_names_iff : forall a b, eq_names a b = true <-> a = b.
Proof.
  intros a; induction a as [|x a IH]; intros [|y b]; simpl; split; intros H; try reflexivity;
    try discriminate.
  - apply andb_true_iff in H. destruct H as [H1 H2]. apply String.eqb_eq in H1.
    apply IH in H2. subst. reflexivity.
  - inversion H; subst. rewrite String.eqb_refl. apply IH. reflexivity.
Qed.

Section Exogenous.
Context {P : Type}.

Lemma section_names_iff : forall (l : list (string * P)) syms,
  syms = section_names l <->
  exists names, Forall2 (fun e n => reads_as (fst e) n) l names /\ syms = concat names.
Proof.
  intros l syms; split.
  - intros ->. exists (map (fun e => map strip (split_char "," (fst e))) l).
    split; [|reflexivity]. induction l as [|e l IH]; simpl; constructor; [|exact IH].
    apply reads_as_iff. reflexivity.
  - intros (names & Hf & ->). unfold section_names. f_equal.
    induction Hf as [|e n l ns He Hf IH]; [reflexivity|].
    simpl. apply reads_as_iff in He. rewrite He, <- IH. reflexivity.
Qed.

Lemma exogenous_accepted : forall syms (l : list (string * P)) r,
  get_exogenous syms (Ok (ExoDict l)) = Ok r <->
  r = Product (map snd l) /\
  exists names, Forall2 (fun e n => reads_as (fst e) n) l names /\ syms = concat names.
Proof.
  intros syms l r. rewrite <- section_names_iff. unfold get_exogenous. cbn [bind].
  destruct (eq_names syms (section_names l)) eqn:E.
  - apply eq_names_iff in E. split.
    + intros H. inversion H; subst r. split; [reflexivity|exact E].
    + intros [-> _]. reflexivity.
  - split; [discriminate|]. intros [_ H]. apply eq_names_iff in H. congruence.
Qed.

Lemma exogenous_refused : forall syms (l : list (string * P)),
  (forall names, Forall2 (fun e n => reads_as (fst e) n) l names -> syms <> concat names) ->
  is_err (get_exogenous syms (Ok (ExoDict l))).
Proof.
  intros syms l H. destruct (get_exogenous syms (Ok (ExoDict l))) as [r|e] eqn:E.
  - apply exogenous_accepted in E. destruct E as (_ & names & Hf & Hs).
    exfalso. exact (H names Hf Hs).
  - eexists; reflexivity.
Qed.
End Exogenous.

(** ** Complementarity conditions *)
Section Complementarities.
Context {X : Type}.
Variable str : X -> string.

Lemma arbitrage_loop_ok : forall controls l i,
  (forall j x, nth_error l j = Some x -> well_formed controls (i + j) x) ->
  arbitrage_loop str controls i l
  = Ok (map (eq_text str) l, map (lb_text str) l, map (ub_text str) l, existsb has_condition l).
Proof.
  intros controls l; induction l as [|x l IH]; intros i H; [reflexivity|].
  assert (Hr : forall j y, nth_error l j = Some y -> well_formed controls (S i + j) y).
  { intros j y Hy. replace (S i + j) with (i + S j) by lia. apply H. exact Hy. }
  pose proof (H 0 x eq_refl) as H0. rewrite Nat.add_0_r in H0.
  destruct x as [eq|eq lo v t hi]; cbn [arbitrage_loop].
  - rewrite (IH (S i) Hr). reflexivity.
  - destruct H0 as [Hc Ht]. rewrite Hc, String.eqb_refl, Ht. cbn [andb Z.eqb].
    rewrite (IH (S i) Hr). reflexivity.
Qed.

Lemma arbitrage_loop_err : forall controls l i j x,
  nth_error l j = Some x -> ~ well_formed controls (i + j) x ->
  is_err (arbitrage_loop str controls i l).
Proof.
  intros controls l; induction l as [|y l IH]; intros i j x Hx Hw; [destruct j; discriminate|].
  destruct j as [|j].
  - simpl in Hx. inversion Hx; subst y. rewrite Nat.add_0_r in Hw.
    destruct x as [eq|eq lo v t hi]; [exfalso; apply Hw; exact I|].
    cbn [arbitrage_loop]. destruct (nth_error controls i) as [c|] eqn:Ec; [|eexists; reflexivity].
    destruct (String.eqb v c && Z.eqb t 0) eqn:Eb; [|eexists; reflexivity].
    apply andb_true_iff in Eb. destruct Eb as [E1 E2].
    apply String.eqb_eq in E1. apply Z.eqb_eq in E2. subst.
    exfalso. apply Hw. split; [exact Ec|reflexivity].
  - simpl in Hx. replace (i + S j) with (S i + j) in Hw by lia.
    destruct (IH (S i) j x Hx Hw) as [e He].
    destruct y as [eq|eq lo v t hi]; cbn [arbitrage_loop].
    + rewrite He. eexists; reflexivity.
    + destruct (nth_error controls i) as [c|]; [|eexists; reflexivity].
      destruct (String.eqb v c && Z.eqb t 0); [|eexists; reflexivity].
      rewrite He. eexists; reflexivity.
Qed.

Lemma arbitrage_parsed : forall controls l d,
  arbitrage_entries str controls l = Ok d ->
  (forall j x, nth_error l j = Some x -> well_formed controls j x) /\
  dget d "arbitrage" = Some (map (eq_text str) l) /\
  (if existsb has_condition l
   then dget d "arbitrage_lb" = Some (map (lb_text str) l) /\
        dget d "arbitrage_ub" = Some (map (ub_text str) l)
   else dget d "arbitrage_lb" = None /\ dget d "arbitrage_ub" = None).
Proof.
  intros controls l d H.
  assert (W : forall j x, nth_error l j = Some x -> well_formed controls j x).
  { intros j x Hx.
    assert (D : well_formed controls j x \/ ~ well_formed controls j x).
    { destruct x as [eq|eq lo v t hi]; [left; exact I|]. simpl.
      destruct (nth_error controls j) as [c|]; [|right; intros [C _]; discriminate].
      destruct (string_dec c v) as [->|Hn]; [|right; intros [C _]; congruence].
      destruct (Z.eq_dec t 0) as [->|Hn]; [left; split; reflexivity|right; intros [_ C]; contradiction]. }
    destruct D as [D|D]; [exact D|]. exfalso.
    destruct (arbitrage_loop_err controls l 0 j x Hx D) as [e He].
    unfold arbitrage_entries in H. rewrite He in H. discriminate. }
  split; [exact W|]. unfold arbitrage_entries in H.
  rewrite (arbitrage_loop_ok controls l 0 W) in H. cbn [bind] in H.
  destruct (existsb has_condition l); inversion H; subst; repeat split; reflexivity.
Qed.

Lemma arbitrage_accepted : forall controls l,
  (forall j x, nth_error l j = Some x -> well_formed controls j x) ->
  exists d, arbitrage_entries str controls l = Ok d.
Proof.
  intros controls l W. unfold arbitrage_entries.
  rewrite (arbitrage_loop_ok controls l 0 W). eexists; reflexivity.
Qed.

Lemma arbitrage_rejected : forall controls l j x,
  nth_error l j = Some x -> ~ well_formed controls j x ->
  is_err (arbitrage_entries str controls l).
Proof.
  intros controls l j x Hx Hw. unfold arbitrage_entries.
  destruct (arbitrage_loop_err controls l 0 j x Hx Hw) as [e He]. rewrite He.
  eexists; reflexivity.
Qed.
End Complementarities.

(** ** decode_complementarity *)
Lemma first_line_id : forall s, has_char "010" s = false -> first_line s = s.
Proof.
  intros s; induction s as [|a s IH]; intros H; [reflexivity|].
  simpl in H. apply orb_false_iff in H. destruct H as [H1 H2].
  simpl. rewrite H1, (IH H2). reflexivity.
Qed.

Lemma has_char_app : forall c a b,
  has_char c (a ++ b)%string = has_char c a || has_char c b.
Proof.
  intros c a; induction a as [|x a IH]; intros b; [reflexivity|].
  simpl. rewrite IH, orb_assoc. reflexivity.
Qed.

Lemma decode_double : forall lb ctl ub control,
  has_char "010" (lb ++ "<=" ++ ctl ++ "<=" ++ ub)%string = false ->
  has_le lb = false -> has_le ctl = false -> has_le ub = false ->
  decode_complementarity (lb ++ "<=" ++ ctl ++ "<=" ++ ub)%string control
  = (if String.eqb (strip ctl) control then Ok (strip lb, strip ub)
     else Err (ExcGeneric "Complementarity condition incorrect")).
Proof.
  intros lb ctl ub control Hn H1 H2 H3. unfold decode_complementarity.
  rewrite first_line_id by exact Hn.
  change ("<=" ++ ctl ++ "<=" ++ ub)%string with
    (String "<" (String "=" (ctl ++ String "<" (String "=" ub))%string)).
  rewrite split_le_cons by exact H1. rewrite split_le_cons by exact H2.
  rewrite split_le_single by exact H3. reflexivity.
Qed.

Lemma decode_single : forall a b control,
  has_char "010" (a ++ "<=" ++ b)%string = false -> has_le a = false -> has_le b = false ->
  is_err (decode_complementarity (a ++ "<=" ++ b)%string control).
Proof.
  intros a b control Hn H1 H2. unfold decode_complementarity.
  rewrite first_line_id by exact Hn.
  change ("<=" ++ b)%string with (String "<" (String "=" b)).
  rewrite split_le_cons by exact H1. rewrite split_le_single by exact H2.
  eexists; reflexivity.
Qed.

(** ** The object of a file *)
Section File.
Context {E V B P : Type}.
Variables (zero_expr nan_expr : E) (nan : V) (literal : V -> E).
Variable solve : dict E -> res (dict V).
Variable symbols : loosy (list string).
Variable defs : dict E.
Variable eval_bound : dict V -> B -> res V.
Variable grid : option (list V) * option (list V).
Variable eval_exogenous : option (dict V -> res (exo_section P)).

Lemma file_domain_stable : forall l l' s,
  snd (file_domain zero_expr nan_expr solve symbols defs eval_bound false grid l
         (fst (file_domain zero_expr nan_expr solve symbols defs eval_bound false grid l' s)))
  = snd (file_domain zero_expr nan_expr solve symbols defs eval_bound false grid l s).
Proof.
  intros l l' s. unfold file_domain.
  destruct (loosy_getitem symbols "states") as [states|e]; [|reflexivity].
  apply get_domain_stable.
Qed.

Lemma file_never_stale : forall lines sec h,
  file_history zero_expr nan_expr nan literal solve symbols defs eval_bound false grid
    eval_exogenous lines sec h
  = uncached (file_calibration zero_expr nan_expr solve symbols defs)
      (file_wrap nan literal solve symbols)
      (file_exogenous zero_expr nan_expr solve symbols defs eval_exogenous)
      (file_domain zero_expr nan_expr solve symbols defs eval_bound false grid) lines sec h.
Proof. intros lines sec h. apply new_object_history. exact file_domain_stable. Qed.
End File.
