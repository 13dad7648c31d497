(** Proofs about the output of verbose runs. *)
From Coq Require Import String Ascii List ZArith Reals Arith Lia Lra.
From Verif.Base Require Import Prelude Norms Ext Dict.
From Verif.Model Require Import Newton TimeIteration Verbose.
From Verif.Spec Require Import Verbose.
Import ListNotations.
Open Scope string_scope.

(** * Strings *)
Lemma app_assoc_s : forall a b c : string, (a ++ b) ++ c = a ++ (b ++ c).
Proof. induction a as [|x a IH]; intros; simpl; [reflexivity | now rewrite IH]. Qed.
Lemma app_nil_s : forall a : string, a ++ "" = a.
Proof. induction a as [|x a IH]; simpl; [reflexivity | now rewrite IH]. Qed.
Lemma length_app : forall a b, String.length (a ++ b) = (String.length a + String.length b)%nat.
Proof. induction a as [|x a IH]; intros; simpl; [reflexivity | now rewrite IH]. Qed.
Lemma length_times : forall c k, String.length (times c k) = k.
Proof. induction k as [|k IH]; simpl; [reflexivity | now rewrite IH]. Qed.
Lemma length_pad_left : forall w t, String.length (pad_left w t) = Nat.max w (String.length t).
Proof. intros. unfold pad_left. rewrite length_app, length_times. lia. Qed.
Lemma length_pad_right : forall w t, String.length (pad_right w t) = Nat.max w (String.length t).
Proof. intros. unfold pad_right. rewrite length_app, length_times. lia. Qed.

Lemma substring_0 : forall b c, substring 0 (String.length b) (b ++ c) = b.
Proof.
  induction b as [|x b IH]; intros c; simpl.
  - now destruct c.
  - now rewrite IH.
Qed.
Lemma substring_mid : forall a b c, substring (String.length a) (String.length b) (a ++ b ++ c) = b.
Proof. induction a as [|x a IH]; intros b c; simpl; [apply substring_0 | apply IH]. Qed.

Definition box (cs : list string) : string := "| " ++ String.concat " | " cs ++ " |".

Lemma concat_cons : forall sep a l, l <> [] -> String.concat sep (a :: l) = a ++ sep ++ String.concat sep l.
Proof. intros sep a [|b l] H; [congruence | reflexivity]. Qed.

Lemma box_cons : forall a l, l <> [] -> box (a :: l) = "| " ++ a ++ " " ++ box l.
Proof.
  intros a l H. unfold box. rewrite concat_cons by exact H.
  rewrite !app_assoc_s. reflexivity.
Qed.

Definition cells_len (cs : list string) : nat := fold_right (fun c a => String.length c + 3 + a)%nat 0%nat cs.

Lemma box_length : forall cs, cs <> [] -> String.length (box cs) = (1 + cells_len cs)%nat.
Proof.
  induction cs as [|a l IH]; intros H; [congruence|].
  destruct l as [|b l].
  - unfold box, cells_len. simpl. rewrite length_app. simpl. lia.
  - rewrite box_cons by discriminate. rewrite !length_app, IH by discriminate. unfold cells_len. simpl. lia.
Qed.

Lemma box_split : forall cs k, (k < length cs)%nat ->
  exists a c, box cs = a ++ nth k cs "" ++ c /\ String.length a = (2 + cells_len (firstn k cs))%nat.
Proof.
  induction cs as [|x l IH]; intros k Hk; [simpl in Hk; lia|].
  destruct l as [|y l].
  - destruct k as [|k]; [|simpl in Hk; lia].
    exists "| ", " |". split; reflexivity.
  - destruct k as [|k].
    + exists "| ", (" " ++ box (y :: l)). split; [|reflexivity].
      rewrite box_cons by discriminate. reflexivity.
    + destruct (IH k) as (a & c & E & L); [simpl in *; lia|].
      exists ("| " ++ x ++ " " ++ a), c. split.
      * rewrite box_cons by discriminate. rewrite E. rewrite !app_assoc_s. reflexivity.
      * change (nth (S k) (x :: y :: l) "") with (nth k (y :: l) "").
        rewrite !length_app, L. change (firstn (S k) (x :: y :: l)) with (x :: firstn k (y :: l)).
        unfold cells_len. simpl. lia.
Qed.

Lemma box_cell : forall cs k, (k < length cs)%nat ->
  substring (2 + cells_len (firstn k cs)) (String.length (nth k cs "")) (box cs) = nth k cs "".
Proof.
  intros cs k Hk. destruct (box_split cs k Hk) as (a & c & E & L).
  rewrite E, <- L. apply substring_mid.
Qed.

Lemma concat_bars : forall l, l <> [] ->
  "|" ++ String.concat "" (map (fun t => " " ++ t ++ " |") l) = box l.
Proof.
  induction l as [|a l IH]; intros H; [congruence|].
  destruct l as [|b l].
  - unfold box. simpl. reflexivity.
  - rewrite box_cons by discriminate. rewrite <- IH by discriminate.
    change (map (fun t => " " ++ t ++ " |") (a :: b :: l)) with
      ((" " ++ a ++ " |") :: map (fun t => " " ++ t ++ " |") (b :: l)).
    rewrite concat_cons by discriminate.
    set (r := String.concat "" (map (fun t => " " ++ t ++ " |") (b :: l))).
    change ("|" ++ (" " ++ a ++ " |") ++ "" ++ r = "| " ++ a ++ " " ++ "|" ++ r).
    rewrite !app_assoc_s. reflexivity.
Qed.

(** * Columns *)
Lemma dset_new : forall V (d : dict V) k v, ~ In k (map fst d) -> dset d k v = (d ++ [(k, v)])%list.
Proof.
  induction d as [|[k' v'] d IH]; intros k v H; simpl; [reflexivity|].
  destruct (String.eqb_spec k k') as [E|E].
  - subst. exfalso. apply H. left. reflexivity.
  - rewrite IH; [reflexivity|]. intro. apply H. right. assumption.
Qed.

Lemma dupdate_fresh : forall V (l d : dict V), NoDup (map fst (d ++ l)%list) -> dupdate d l = (d ++ l)%list.
Proof.
  unfold dupdate. induction l as [|[k v] l IH]; intros d H; simpl.
  - now rewrite app_nil_r.
  - rewrite dset_new.
    + rewrite IH; rewrite <- app_assoc; [reflexivity | exact H].
    + rewrite map_app in H. simpl in H. apply NoDup_remove_2 in H. intro. apply H. apply in_or_app. now left.
Qed.

Section Table.
  Variable F : Type.
  Variables (sci : F -> string) (repr : F -> string) (sci_int : Z -> string).
  Variable cols : list (string * col_type).
  Hypothesis Hcols : plain_columns cols.
  Hypothesis Hzero : String.length (sci_int 0) = 9%nat.
  Let p := new_printer cols true.

  Lemma columns_p : pr_columns p = cols.
  Proof. unfold p, new_printer. simpl. rewrite (dupdate_fresh _ cols []); [reflexivity | apply Hcols]. Qed.

  Lemma fmts_p : pr_fmts p = flat_map fmt_of cols.
  Proof. unfold p, new_printer. simpl. rewrite (dupdate_fresh _ cols []); [reflexivity | apply Hcols]. Qed.

  Definition one_fmt (e : string * col_type) : fmt :=
    match snd e with TyInt => FWidth (Nat.max 4 (String.length (fst e))) | _ => FSci end.

  Lemma fmts_map : pr_fmts p = map one_fmt cols.
  Proof. clear Hzero.
    rewrite fmts_p. destruct Hcols as (_ & _ & H). clear Hcols p. induction cols as [|e l IH]; [reflexivity|].
    simpl. rewrite IH by (intros; apply H; now right).
    assert (Ht := H e (or_introl eq_refl)). unfold fmt_of, one_fmt. destruct (snd e); [reflexivity | reflexivity | congruence].
  Qed.

  Definition shown (ev : (string * col_type) * cell F) : string :=
    apply_fmt F sci repr sci_int (one_fmt (fst ev)) (snd ev).

  Lemma row_box : forall vals, length vals = length cols ->
    format_row F sci repr sci_int (pr_fmts p) vals = box (map shown (combine cols vals)).
  Proof. clear Hzero.
    intros vals H. unfold format_row, box. rewrite fmts_map. do 3 f_equal.
    clear Hcols p. revert vals H. induction cols as [|e l IH]; intros [|v vals] H; simpl in *; try lia; [reflexivity|].
    f_equal. apply IH. lia.
  Qed.

  Lemma fold_widths : forall l (g : (string * col_type) * cell F -> string) vals,
    length vals = length l ->
    (forall ev, In ev (combine l vals) -> String.length (g ev) = col_width (fst ev)) ->
    cells_len (map g (combine l vals)) = fold_right (fun e a => col_width e + 3 + a)%nat 0%nat l.
  Proof. clear Hzero.
    induction l as [|e l IH]; intros g [|v vals] H Hg; simpl in *; try lia.
    rewrite (Hg (e, v)) by now left. simpl. unfold cells_len in IH. rewrite IH; [reflexivity | lia | intros; apply Hg; now right].
  Qed.

  Lemma width_p : width sci repr sci_int p = table_width cols.
  Proof.
    unfold width. rewrite row_box by (rewrite map_length, columns_p; reflexivity).
    rewrite columns_p. rewrite box_length.
    - unfold table_width. f_equal. apply fold_widths; [now rewrite map_length|].
      intros [e v] Hin. assert (v = CInt 0) as ->.
      { apply in_combine_r in Hin. apply in_map_iff in Hin. destruct Hin as (? & E & _). now rewrite <- E. }
      unfold shown, one_fmt, apply_fmt, col_width. cbn [fst snd].
      destruct (snd e); rewrite length_pad_left; try (rewrite Hzero; reflexivity).
      assert (String.length (int_str 0) = 1%nat) as -> by reflexivity. lia.
    - destruct Hcols as (Hn & _). destruct cols; [congruence | discriminate].
  Qed.

  Definition titled (e : string * col_type) : string :=
    pad_right (match snd e with TyInt => 4 | _ => 9 end) (fst e).

  Lemma title_box : title p = box (map titled cols).
  Proof. clear Hzero.
    unfold title. rewrite columns_p. rewrite <- concat_bars.
    - f_equal. f_equal. destruct Hcols as (_ & _ & H). rewrite map_map. apply map_ext_in. intros e He.
      unfold title_of, titled. specialize (H e He). destruct (snd e); [reflexivity | reflexivity | congruence].
    - destruct Hcols as (Hn & _). destruct cols; [congruence | discriminate].
  Qed.

  Lemma length_titled : forall e, String.length (titled e) = Nat.max (col_width e) (String.length (fst e)).
  Proof. clear Hzero. intros e. unfold titled, col_width. rewrite length_pad_right. destruct (snd e); lia. Qed.

  Lemma title_length_le : forall l, (fold_right (fun e a => col_width e + 3 + a) 0 l <= cells_len (map titled l))%nat /\
    ((cells_len (map titled l) = fold_right (fun e a => col_width e + 3 + a) 0 l)%nat <-> names_fit l).
  Proof. clear Hzero.
    induction l as [|e l [A B]]; simpl.
    - split; [lia|]. split; [intros _ e [] | reflexivity].
    - rewrite length_titled. unfold cells_len in *. split; [lia|]. unfold names_fit in *. split.
      + intros H e' [<-|Hin]; [lia|]. apply B; [lia | exact Hin].
      + intros H. assert (H1 := H e (or_introl eq_refl)).
        assert (H2 : fold_right (fun c a => String.length c + 3 + a)%nat 0%nat (map titled l) =
                     fold_right (fun e a => col_width e + 3 + a)%nat 0%nat l) by (apply B; intros; apply H; now right).
        lia.
  Qed.

  Lemma title_length : String.length (title p) = table_width cols <-> names_fit cols.
  Proof. clear Hzero.
    rewrite title_box, box_length by (destruct Hcols as (Hn & _); destruct cols; [congruence | discriminate]).
    unfold table_width. destruct (title_length_le cols) as [_ B]. rewrite <- B. lia.
  Qed.

  Lemma boxed_length : forall ll, (String.length (boxed F sci repr sci_int p ll) = table_width cols <->
                                  String.length ll + 1 <= table_width cols)%nat.
  Proof.
    intros ll. unfold boxed. rewrite !length_app, length_times, width_p. change (String.length "|") with 1%nat.
    assert (0 < table_width cols)%nat by (unfold table_width; lia). lia.
  Qed.

  Lemma header_aligned : forall msg,
    (forall l, In l (print_header sci repr sci_int p (Some msg)) -> String.length l = table_width cols) <->
    (names_fit cols /\ (String.length msg + 3 <= table_width cols)%nat).
  Proof.
    intros msg. unfold print_header, print_line. change (pr_verbose p) with true. cbv iota. simpl app.
    assert (D : String.length (times "-" (width sci repr sci_int p)) = table_width cols) by (rewrite length_times; apply width_p).
    split.
    - intros H. split.
      + apply title_length. apply H. simpl. tauto.
      + assert (E : String.length (boxed F sci repr sci_int p ("| " ++ msg)) = table_width cols) by (apply H; simpl; tauto).
        apply boxed_length in E. change (String.length ("| " ++ msg)) with (S (S (String.length msg))) in E. lia.
    - intros [Hn Hm] l [<-|[<-|[<-|[<-|[<-|[]]]]]]; try exact D.
      + apply (proj2 (boxed_length ("| " ++ msg))). change (String.length ("| " ++ msg)) with (S (S (String.length msg))). lia.
      + apply title_length. exact Hn.
  Qed.

  Lemma title_cell : names_fit cols -> forall k e, nth_error cols k = Some e ->
    substring (col_start cols k) (col_width e) (title p) = pad_right (col_width e) (fst e).
  Proof. clear Hzero.
    intros Hn k e He. assert (Hk : (k < length cols)%nat) by (apply nth_error_Some; congruence).
    assert (Hin := nth_error_In _ _ He). assert (Hw := Hn e Hin).
    assert (Et : nth k (map titled cols) "" = pad_right (col_width e) (fst e)).
    { rewrite (nth_indep _ _ (titled e)) by (rewrite map_length; exact Hk). rewrite map_nth.
      rewrite (nth_error_nth _ _ e He). unfold titled, pad_right, col_width in *. f_equal. f_equal.
      destruct (snd e); lia. }
    assert (Hlen : String.length (pad_right (col_width e) (fst e)) = col_width e) by (rewrite length_pad_right; lia).
    rewrite title_box, <- Et. rewrite <- Hlen at 1. rewrite <- Et.
    replace (col_start cols k) with (2 + cells_len (firstn k (map titled cols)))%nat.
    - apply box_cell. rewrite map_length. exact Hk.
    - unfold col_start. f_equal. rewrite firstn_map. apply title_length_le.
      intros e' H'. apply Hn. rewrite <- (firstn_skipn k cols). apply in_or_app. now left.
  Qed.

  Lemma cells_ok : forall args names,
    (forall k, In k names -> dget args k <> None) ->
    exists vals, cells F args names = Ok vals /\ length vals = length names /\
      forall k n, nth_error names k = Some n -> nth_error vals k = dget args n.
  Proof. clear Hzero.
    intros args. induction names as [|n names IH]; intros H; simpl.
    - exists []. split; [reflexivity|]. split; [reflexivity|]. intros [|k] n E; discriminate.
    - destruct (dget args n) as [v|] eqn:E; [|exfalso; apply (H n); [now left | exact E]].
      destruct IH as (vals & E1 & E2 & E3); [intros; apply H; now right|].
      rewrite E1. exists (v :: vals). cbn [bind]. split; [reflexivity|]. split; [simpl; lia|].
      intros [|k] m Hm; simpl in *; [injection Hm as <-; now symmetry | apply E3, Hm].
  Qed.

  Lemma cells_missing : forall args names k, In k names -> dget args k = None -> cells F args names = Err ExcKey.
  Proof. clear Hzero.
    intros args. induction names as [|n names IH]; intros k H E; [destruct H|]. simpl. destruct H as [->|H].
    - now rewrite E.
    - destruct (dget args n) as [v|]; [|reflexivity]. rewrite (IH k H E). reflexivity.
  Qed.

  Lemma row_missing : forall args k, In k (map fst cols) -> dget args k = None ->
    print_iteration sci repr sci_int p args = Err ExcKey.
  Proof. clear Hzero.
    intros args k H E. unfold print_iteration. change (pr_verbose p) with true. cbv iota. rewrite columns_p.
    unfold dkeys. now rewrite (cells_missing args _ k H E).
  Qed.

  Lemma row_cell : forall args, (forall k, In k (map fst cols) -> dget args k <> None) ->
    exists line, print_iteration sci repr sci_int p args = Ok [line] /\
      ((forall e v, In e cols -> dget args (fst e) = Some v ->
          (String.length (apply_fmt F sci repr sci_int (one_fmt e) v) <= col_width e)%nat) ->
       String.length line = table_width cols /\
       forall k e v, nth_error cols k = Some e -> dget args (fst e) = Some v ->
         substring (col_start cols k) (col_width e) line = apply_fmt F sci repr sci_int (one_fmt e) v).
  Proof. clear Hzero.
    intros args H. destruct (cells_ok args (map fst cols) H) as (vals & E1 & E2 & E3). rewrite map_length in E2.
    exists (box (map shown (combine cols vals))). split.
    { unfold print_iteration. change (pr_verbose p) with true. cbv iota. rewrite columns_p. unfold dkeys. rewrite E1.
      cbn [bind]. now rewrite row_box. }
    intros Hfit.
    assert (W : forall ev, In ev (combine cols vals) -> String.length (shown ev) = col_width (fst ev)).
    { intros [e v] Hin. assert (G : dget args (fst e) = Some v).
      { destruct (In_nth_error _ _ Hin) as (k & Hk).
        assert (A : nth_error cols k = Some e /\ nth_error vals k = Some v).
        { clear - Hk. revert vals k Hk. induction cols as [|a l IH]; intros [|b vals] [|k] Hk; simpl in *; try discriminate.
          - injection Hk as -> ->. auto.
          - apply IH, Hk. }
        destruct A as [A1 A2]. rewrite <- A2. symmetry. apply E3. now rewrite nth_error_map, A1. }
      assert (Hle := Hfit e v (in_combine_l _ _ _ _ Hin) G). unfold shown. simpl.
      apply Nat.le_antisymm; [exact Hle|].
      unfold apply_fmt, one_fmt, col_width. destruct (snd e), v; rewrite length_pad_left; lia. }
    split.
    - rewrite box_length.
      + unfold table_width. f_equal. now apply fold_widths.
      + destruct Hcols as (Hn & _). destruct cols; [congruence|]. destruct vals; [simpl in E2; lia | discriminate].
    - intros k e v He Hv.
      assert (Hk : (k < length cols)%nat) by (apply nth_error_Some; congruence).
      assert (Ek : nth_error (combine cols vals) k = Some (e, v)).
      { assert (A2 : nth_error vals k = Some v) by (rewrite <- Hv; apply E3; now rewrite nth_error_map, He).
        clear - He A2. revert vals k He A2. induction cols as [|a l IH]; intros [|b vals] [|k] He A2; simpl in *; try discriminate.
        - congruence.
        - now apply IH. }
      assert (Et : nth k (map shown (combine cols vals)) "" = shown (e, v)).
      { apply nth_error_nth. now rewrite nth_error_map, Ek. }
      change (apply_fmt F sci repr sci_int (one_fmt e) v) with (shown (e, v)).
      rewrite <- Et at 1. assert (Hl := W (e, v) (nth_error_In _ _ Ek)). cbn [fst] in Hl. rewrite <- Hl. rewrite <- Et.
      replace (col_start cols k) with (2 + cells_len (firstn k (map shown (combine cols vals))))%nat.
      + apply box_cell. rewrite map_length, combine_length. lia.
      + unfold col_start. f_equal. rewrite firstn_map, combine_firstn. apply fold_widths.
        * rewrite !firstn_length. lia.
        * intros ev Hin. apply W. rewrite <- combine_firstn in Hin. rewrite <- (firstn_skipn k (combine cols vals)).
          apply in_or_app. now left.
  Qed.
End Table.

Lemma apply_text : forall F sci repr sci_int e v,
  apply_fmt F sci repr sci_int (one_fmt e) v = pad_left (col_width e) (cell_text sci repr sci_int e v).
Proof. intros. unfold apply_fmt, one_fmt, cell_text, col_width. destruct (snd e), v; reflexivity. Qed.

Lemma header_aligned_lines : forall F sci repr sci_int cols msg,
  plain_columns cols -> String.length (sci_int 0%Z) = 9%nat ->
  (forall l, In l (@print_header F sci repr sci_int (new_printer cols true) (Some msg)) -> String.length l = table_width cols) <->
  (names_fit cols /\ (String.length msg + 3 <= table_width cols)%nat).
Proof. intros. now apply header_aligned. Qed.

Lemma header_names : forall F sci repr sci_int cols msg,
  plain_columns cols -> String.length (sci_int 0%Z) = 9%nat -> names_fit cols ->
  exists title, In title (@print_header F sci repr sci_int (new_printer cols true) msg) /\
  forall k e, nth_error cols k = Some e ->
    substring (col_start cols k) (col_width e) title = pad_right (col_width e) (fst e).
Proof.
  intros F sci repr sci_int cols msg H H0 Hn. exists (title (new_printer cols true)). split.
  - unfold print_header. cbn [pr_verbose new_printer]. apply in_or_app. right. apply in_or_app. right. now left.
  - intros k e. eapply title_cell; eassumption.
Qed.

Lemma row_values : forall F sci repr sci_int cols (args : dict (cell F)),
  plain_columns cols ->
  (forall k, In k (map fst cols) -> dget args k <> None) ->
  exists line, print_iteration sci repr sci_int (new_printer cols true) args = Ok [line] /\
    ((forall e v, In e cols -> dget args (fst e) = Some v ->
        (String.length (cell_text sci repr sci_int e v) <= col_width e)%nat) ->
     String.length line = table_width cols /\
     forall k e v, nth_error cols k = Some e -> dget args (fst e) = Some v ->
       substring (col_start cols k) (col_width e) line = pad_left (col_width e) (cell_text sci repr sci_int e v)).
Proof.
  intros F sci repr sci_int cols args H Hall.
  destruct (row_cell F sci repr sci_int cols H args Hall) as (line & E & P).
  exists line. split; [exact E|]. intros Hfit. destruct P as [P1 P2].
  - intros e v Hin Hv. rewrite apply_text, length_pad_left. specialize (Hfit e v Hin Hv). lia.
  - split; [exact P1|]. intros k e v He Hv. rewrite <- apply_text. now apply P2.
Qed.

Lemma row_raises : forall F sci repr sci_int cols (args : dict (cell F)),
  plain_columns cols ->
  (print_iteration sci repr sci_int (new_printer cols true) args = Err ExcKey <->
   exists k, In k (map fst cols) /\ dget args k = None).
Proof.
  intros F sci repr sci_int cols args H. split.
  - intros E. assert (D : {exists k, In k (map fst cols) /\ dget args k = None} +
      {forall k, In k (map fst cols) -> dget args k <> None}).
    { generalize (map fst cols). induction l as [|a l [IH|IH]].
      - right. intros k [].
      - left. destruct IH as (k & A & B). exists k. split; [now right | exact B].
      - destruct (dget args a) as [v|] eqn:Ea.
        + right. intros k [<-|Hk]; [congruence | now apply IH].
        + left. exists a. split; [now left | exact Ea]. }
    destruct D as [D|D]; [exact D|].
    destruct (row_values F sci repr sci_int cols args H D) as (line & E' & _). congruence.
  - intros (k & A & B). eapply row_missing; eassumption.
Qed.

Lemma silent : forall F sci repr sci_int cols,
  let p := new_printer cols false in
  (forall msg, @print_header F sci repr sci_int p msg = []) /\
  (forall args, print_iteration sci repr sci_int p args = Ok []) /\
  (forall elapsed, print_finished sci repr sci_int p elapsed = []).
Proof. intros. repeat split. Qed.

Lemma iti_title_long : forall F sci repr sci_int msg,
  String.length (sci_int 0%Z) = 9%nat ->
  exists title, In title (@print_header F sci repr sci_int (new_printer iti_columns true) msg) /\
    (String.length title = 12 + table_width iti_columns)%nat /\
    In (times "-" (table_width iti_columns)) (@print_header F sci repr sci_int (new_printer iti_columns true) msg).
Proof.
  intros F sci repr sci_int msg H0.
  assert (Hp : plain_columns iti_columns).
  { split; [discriminate|]. split.
    - repeat constructor; simpl; intuition discriminate.
    - intros e He. simpl in He. repeat destruct He as [<-|He]; try discriminate; destruct He. }
  exists (title (new_printer iti_columns true)). split; [|split].
  - unfold print_header. cbn [pr_verbose new_printer]. apply in_or_app. right. apply in_or_app. right. now left.
  - reflexivity.
  - unfold print_header, print_line. cbn [pr_verbose new_printer]. apply in_or_app. left. left.
    f_equal. now apply (width_p F sci repr sci_int iti_columns Hp H0).
Qed.

Lemma ti_plain : plain_columns ti_columns /\ names_fit ti_columns.
Proof.
  split.
  - split; [discriminate|]. split.
    + repeat constructor; simpl; intuition discriminate.
    + intros e He. simpl in He. repeat destruct He as [<-|He]; try discriminate; destruct He.
  - intros e He. simpl in He. repeat destruct He as [<-|He]; try (vm_compute; lia); destruct He.
Qed.

Lemma vi_plain : plain_columns vi_columns /\ names_fit vi_columns.
Proof.
  split.
  - split; [discriminate|]. split.
    + repeat constructor; simpl; intuition discriminate.
    + intros e He. simpl in He. repeat destruct He as [<-|He]; try discriminate; destruct He.
  - intros e He. simpl in He. repeat destruct He as [<-|He]; try (vm_compute; lia); destruct He.
Qed.

(** * The log of newton *)
Open Scope R_scope.

Fixpoint numbered (it : nat) (steps : list (R * nat)) : list newton_line :=
  match steps with [] => [] | s :: r => Stepped (S it) (fst s) (snd s) :: numbered (S it) r end.

Lemma numbered_map : forall steps it,
  numbered it steps = map (fun k => let s := nth k steps (0, 0%nat) in Stepped (S (it + k)) (fst s) (snd s)) (seq 0 (length steps)).
Proof.
  induction steps as [|s r IH]; intros it; [reflexivity|].
  cbn [numbered length seq map]. f_equal.
  - cbn [nth]. now rewrite Nat.add_0_r.
  - rewrite IH, <- seq_shift, map_map. apply map_ext. intros k. cbn [nth]. now rewrite Nat.add_succ_r.
Qed.

Section NewtonLog.
  Variable Jac : Type.
  Variable n : nat.
  Variable f : (nat -> R) -> (nat -> R) * Jac.
  Variable lsolve : Jac -> (nat -> R) -> res (nat -> R).
  Variable tol : R.
  Let err (x : nat -> R) := supnorm n (fst (f x)).

  Lemma backtrack_log_run : forall remaining bck e0 x dx,
    let '(xx, e, b) := backtrack_log n f remaining bck e0 x dx in
    xx = backtrack n f remaining bck e0 x dx /\ e = err xx /\ (b <= bck + remaining)%nat /\
    ((b < bck + remaining)%nat -> e < e0).
  Proof.
    induction remaining as [|r IH]; intros bck e0 x dx; cbn [backtrack_log backtrack].
    - repeat split; lia.
    - destruct (Rlt_dec (supnorm n (fst (f (trial x dx bck)))) e0) as [H|H].
      + split; [reflexivity|]. split; [reflexivity|]. split; [lia|]. intros _; exact H.
      + specialize (IH (S bck) e0 x dx).
        destruct (backtrack_log n f r (S bck) e0 x dx) as [[xx e] b]. destruct IH as (A & B & C & D).
        split; [exact A|]. split; [exact B|]. split; [lia|]. intros Hb. apply D. lia.
  Qed.

  Lemma true_steps_cons : forall e0 e b steps,
    tol <= e0 -> (b <= 29)%nat -> ((b < 29)%nat -> e < e0) -> true_steps tol e steps ->
    true_steps tol e0 ((e, b) :: steps).
  Proof.
    intros e0 e b steps H1 H2 H3 H k Hk. destruct k as [|k].
    - cbn. auto.
    - cbn [length] in Hk. assert (Hk' : (k < length steps)%nat) by lia. exact (H k Hk').
  Qed.

  Lemma newton_log_run : forall fuel it x,
    let '(lines, r) := newton_log n f lsolve tol fuel it x in
    r = newton_loop n f lsolve tol fuel it x /\
    exists steps, true_steps tol (err x) steps /\ (length steps <= fuel)%nat /\
      match r with
      | Ok (y, it', ok) =>
          it' = (it + length steps)%nat /\
          lines = (numbered it steps ++ (if ok then [Solved it' (err y)] else []))%list /\
          nth (length steps) (err x :: map fst steps) 0 = err y /\
          (if ok then err y < tol else length steps = fuel)
      | Err _ => lines = numbered it steps
      end.
  Proof.
    induction fuel as [|fuel IH]; intros it x; cbn [newton_log newton_loop].
    - split; [reflexivity|]. exists []. split; [intros k Hk; simpl in Hk; lia|]. split; [simpl; lia|].
      cbn. rewrite Nat.add_0_r. auto.
    - destruct (Nat.eqb n 0).
      { split; [reflexivity|]. exists []. split; [intros k Hk; simpl in Hk; lia|]. split; [simpl; lia | reflexivity]. }
      destruct (f x) as [v dv] eqn:Ef.
      assert (Ex : err x = supnorm n v) by (unfold err; now rewrite Ef).
      destruct (Rlt_dec (supnorm n v) tol) as [H|H].
      { split; [reflexivity|]. exists []. split; [intros k Hk; simpl in Hk; lia|]. split; [simpl; lia|].
        cbn. rewrite Nat.add_0_r, Ex. auto. }
      destruct (lsolve dv v) as [dx|e].
      2:{ split; [reflexivity|]. exists []. split; [intros k Hk; simpl in Hk; lia|]. split; [simpl; lia | reflexivity]. }
      cbn [bind]. assert (B := backtrack_log_run (maxbacksteps - 1) 0 (supnorm n v) x dx).
      destruct (backtrack_log n f (maxbacksteps - 1) 0 (supnorm n v) x dx) as [[xx e] b].
      destruct B as (B1 & B2 & B3 & B4). specialize (IH (S it) xx). rewrite <- B1.
      destruct (newton_log n f lsolve tol fuel (S it) xx) as [lines r].
      destruct IH as (I1 & steps & I2 & I3 & I4). split; [exact I1|].
      exists ((e, b) :: steps). split; [|split].
      + apply true_steps_cons; [rewrite Ex; lra | exact B3 | intros; rewrite Ex; now apply B4 | rewrite B2; exact I2].
      + simpl; lia.
      + destruct r as [[[y it'] ok]|ex].
        * destruct I4 as (J1 & J2 & J3 & J4). split; [simpl; lia|]. split; [|split].
          -- cbn [numbered fst snd app]. now rewrite J2.
          -- cbn [length map fst]. rewrite B2. exact J3.
          -- destruct ok; [exact J4 | simpl; lia].
        * cbn [numbered fst snd]. now rewrite I4.
  Qed.

  Lemma newton_verbose : forall maxit x,
    let '(lines, r) := newton_log n f lsolve tol maxit 0 x in
    r = newton n f lsolve tol maxit x /\
    exists steps, true_steps tol (err x) steps /\
      match r with
      | Ok (y, it, ok) =>
          length steps = it /\
          lines = (step_lines steps ++ (if ok then [Solved it (err y)] else []))%list /\
          nth it (err x :: map fst steps) 0 = err y /\
          (if ok then err y < tol else it = maxit)
      | Err _ => lines = step_lines steps
      end.
  Proof.
    intros maxit x. assert (H := newton_log_run maxit 0 x).
    destruct (newton_log n f lsolve tol maxit 0 x) as [lines r].
    destruct H as (A & steps & B & _ & D). split; [exact A|]. exists steps. split; [exact B|].
    assert (N : numbered 0 steps = step_lines steps) by (rewrite numbered_map; reflexivity).
    rewrite <- N. destruct r as [[[y it] ok]|e]; [|exact D].
    destruct D as (D1 & D2 & D3 & D4). cbn in D1. subst it. auto.
  Qed.
End NewtonLog.

(** * The rows of time_iteration *)
Lemma nth_row : forall (r : ti_row) rows k d, nth (S k) (r :: rows) d = nth k rows d.
Proof. reflexivity. Qed.

Section TiRows.
  Variable size : nat.
  Variable inner : (nat -> R) -> res ((nat -> R) * nat * bool).
  Variable tol : R.

  Lemma ti_rows_run : forall fuel it err prev c0 controls,
    let '(rows, r) := ti_rows size inner tol fuel it err prev c0 controls in
    (forall k, (k < length rows)%nat ->
       let row j := nth j rows (TiRow 0 0 None 0) in
       tr_n (row k) = (S (it + k))%nat /\ ((S k < length rows)%nat -> tol < tr_error (row k)) /\
       match k with
       | O => tr_gain (row k) = gain prev (tr_error (row k))
       | S j => tr_gain (row k) = gain (Some (tr_error (row j))) (tr_error (row k))
       end) /\
    (forall c it' e, r = Ok (c, it', e) ->
       it' = (it + length rows)%nat /\ (it' <= it + fuel)%nat /\
       e = nth (length rows) (err :: map tr_error rows) 0 /\ ((it' < it + fuel)%nat -> e <= tol)) /\
    ((0 < length rows)%nat -> tol < err).
  Proof.
    induction fuel as [|fuel IH]; intros it err prev c0 controls; cbn [ti_rows].
    - split; [intros k Hk; simpl in Hk; lia|]. split; [|simpl; lia]. intros c it' e E. injection E as <- <- <-. cbn. repeat split; lia.
    - destruct (Rlt_dec tol err) as [H|H].
      2:{ split; [intros k Hk; simpl in Hk; lia|]. split; [|simpl; lia]. intros c it' e E. injection E as <- <- <-. cbn. repeat split; try lia. intros. lra. }
      destruct (Nat.eqb size 0).
      { split; [intros k Hk; simpl in Hk; lia|]. split; [|simpl; lia]. intros c it' e E. discriminate E. }
      destruct (inner c0) as [[[c nit] ok]|e].
      2:{ split; [intros k Hk; simpl in Hk; lia|]. split; [|simpl; lia]. intros c it' e' E. discriminate E. }
      cbv zeta. set (er := supnorm size (fun q => c q - c0 q)). specialize (IH (S it) er (Some er) c (Some c)).
      destruct (ti_rows size inner tol fuel (S it) er (Some er) c (Some c)) as [rows r].
      destruct IH as (I1 & I2 & I3). split; [|split].
      + intros k Hk. cbv zeta. destruct k as [|k].
        * cbn [nth tr_n tr_error tr_gain]. rewrite Nat.add_0_r. split; [reflexivity|]. split; [|reflexivity].
          cbn [length]. intros. apply I3. lia.
        * cbn [length] in Hk. assert (Hk' : (k < length rows)%nat) by lia. specialize (I1 k Hk'). cbv zeta in I1.
          destruct I1 as (J1 & J2 & J3). rewrite nth_row. split; [rewrite J1; lia|]. split.
          -- cbn [length]. intros. apply J2. lia.
          -- destruct k as [|k]; [exact J3 | rewrite nth_row; exact J3].
      + intros c' it' e E. destruct (I2 c' it' e E) as (J1 & J2 & J3 & J4). cbn [length map]. split; [lia|]. split; [lia|].
        split; [exact J3|]. intros. apply J4. lia.
      + intros _. exact H.
  Qed.

  Lemma ti_rows_true : forall maxit c0,
    let '(rows, r) := ti_rows size inner tol maxit 0 10 None c0 None in
    true_rows tol rows /\
    (forall c it e, r = Ok (c, it, e) ->
       it = length rows /\ (it <= maxit)%nat /\ e = nth it (10 :: map tr_error rows) 0 /\ ((it < maxit)%nat -> e <= tol)).
  Proof.
    intros maxit c0. assert (H := ti_rows_run maxit 0 10 None c0 None).
    destruct (ti_rows size inner tol maxit 0 10 None c0 None) as [rows r].
    destruct H as (A & B & _). split.
    - intros k Hk. specialize (A k Hk). cbv zeta in A |- *. destruct A as (A1 & A2 & A3).
      split; [exact A1|]. split; [exact A2|]. destruct k as [|k]; [exact A3|]. intros Hz. rewrite A3. unfold gain.
      destruct (Req_EM_T _ 0); [congruence | reflexivity].
    - intros c it e E. destruct (B c it e E) as (B1 & B2 & B3 & B4). cbn in B1. subst it. auto.
  Qed.
End TiRows.


Lemma ti_rows_result : forall g f d s n_x ip lsolve nan tol im b fuel it err prev c0 controls,
  snd (ti_rows (size d s n_x) (ti_inner g f d s n_x ip lsolve nan im b) tol fuel it err prev c0 controls) =
  ti_loop g f d s n_x ip lsolve nan tol im b fuel it err c0 controls.
Proof.
  induction fuel as [|fuel IH]; intros it err prev c0 controls; cbn [ti_rows ti_loop]; [reflexivity|].
  destruct (Rlt_dec tol err); [|reflexivity]. destruct (Nat.eqb (size d s n_x) 0); [reflexivity|].
  destruct (ti_inner g f d s n_x ip lsolve nan im b c0) as [[[c nit] ok]|e]; [|reflexivity].
  cbn [bind fst]. cbv zeta.
  specialize (IH (S it) (supnorm (size d s n_x) (fun q => c q - c0 q)) (Some (supnorm (size d s n_x) (fun q => c q - c0 q))) c (Some c)).
  destruct (ti_rows _ _ _ fuel _ _ _ c _) as [rows r1]. exact IH.
Qed.

Lemma ti_verbose : forall g f d s n_x ip lsolve nan tol im b maxit c0,
  let '(rows, r) := ti_rows (size d s n_x) (ti_inner g f d s n_x ip lsolve nan im b) tol maxit 0 10 None c0 None in
  r = ti_loop g f d s n_x ip lsolve nan tol im b maxit 0 10 c0 None /\
  true_rows tol rows /\
  (forall c it e, r = Ok (c, it, e) ->
     it = length rows /\ (it <= maxit)%nat /\ e = nth it (10 :: map tr_error rows) 0 /\ ((it < maxit)%nat -> e <= tol)).
Proof.
  intros. assert (A := ti_rows_result g f d s n_x ip lsolve nan tol im b maxit 0 10 None c0 None).
  assert (B := ti_rows_true (size d s n_x) (ti_inner g f d s n_x ip lsolve nan im b) tol maxit c0).
  destruct (ti_rows (size d s n_x) (ti_inner g f d s n_x ip lsolve nan im b) tol maxit 0 10 None c0 None) as [rows0 r0]. cbn [snd] in A. destruct B as [B1 B2]. auto.
Qed.

(** The square root of two by newton: x^2 - 2 = 0 from 1. *)
Definition root_two (x : nat -> R) : (nat -> R) * R := (fun _ => x 0%nat * x 0%nat - 2, 2 * x 0%nat).
Definition root_solve (J : R) (v : nat -> R) : res (nat -> R) :=
  if Req_EM_T J 0 then Err ExcLinAlg else Ok (fun i => v i / J).

Lemma root_two_log :
  fst (newton_log 1 root_two root_solve (1 / 3) 5 0 (fun _ => 1)) = [Stepped 1 (1 / 4) 0; Solved 1 (1 / 4)].
Proof.
  assert (N1 : supnorm 1 (fst (root_two (fun _ => 1))) = 1).
  { unfold supnorm, root_two. cbn. rewrite (Rabs_left (1 * 1 - 2)) by lra.
    unfold Rmax. destruct (Rle_dec _ _); lra. }
  set (y := trial (fun _ : nat => 1) (fun _ : nat => (1 * 1 - 2) / (2 * 1)) 0).
  assert (Ey : y 0%nat = 3 / 2) by (unfold y, trial; cbn; field).
  assert (N2 : supnorm 1 (fst (root_two y)) = 1 / 4).
  { unfold supnorm, root_two. cbn. rewrite Ey. replace (3 / 2 * (3 / 2) - 2) with (1 / 4) by field.
    rewrite Rabs_right by lra. unfold Rmax. destruct (Rle_dec _ _); lra. }
  cbn [newton_log Nat.eqb]. unfold root_two at 1. fold (fst (root_two (fun _ => 1))).
  change (fun _ : nat => 1 * 1 - 2) with (fst (root_two (fun _ => 1))). rewrite N1.
  destruct (Rlt_dec 1 (1 / 3)) as [H|_]; [exfalso; lra|].
  unfold root_solve at 1. destruct (Req_EM_T (2 * 1) 0) as [H|_]; [exfalso; lra|].
  change (maxbacksteps - 1)%nat with 29%nat. cbn [backtrack_log].
  change (trial (fun _ : nat => 1) (fun i => fst (root_two (fun _ : nat => 1)) i / (2 * 1)) 0) with y.
  rewrite N2. destruct (Rlt_dec (1 / 4) 1) as [_|H]; [|exfalso; lra].
  cbn [newton_log Nat.eqb]. destruct (root_two y) as [v dv] eqn:E. cbn [fst] in N2. rewrite N2.
  destruct (Rlt_dec (1 / 4) (1 / 3)) as [_|H]; [|exfalso; lra]. reflexivity.
Qed.

Lemma halving_rows :
  map tr_n (fst (ti_rows 1 (fun c => Ok (fun q => c q / 2, 3%nat, true)) (1 / 3) 9 0 10 None (fun _ => 1) None)) = [1; 2]%nat.
Proof.
  assert (S1 : forall x, supnorm 1 (fun _ => x) = Rabs x).
  { intros x. unfold supnorm. cbn. unfold Rmax. destruct (Rle_dec _ _); [reflexivity|]. assert (H := Rabs_pos x). lra. }
  cbn [ti_rows Nat.eqb]. destruct (Rlt_dec (1 / 3) 10) as [_|H]; [|exfalso; lra].
  rewrite S1, (Rabs_left (1 / 2 - 1)) by lra.
  destruct (Rlt_dec (1 / 3) (- (1 / 2 - 1))) as [_|H]; [|exfalso; lra].
  rewrite S1, (Rabs_left (1 / 2 / 2 - 1 / 2)) by lra.
  destruct (Rlt_dec (1 / 3) (- (1 / 2 / 2 - 1 / 2))) as [H|_]; [exfalso; lra|]. reflexivity.
Qed.

Section Limited.
  Variable size : nat.
  Variable inner : (nat -> R) -> res ((nat -> R) * nat * bool).
  Variable tol : R.

  Lemma ti_rows_step : forall k it err prev c0 controls c nit ok, tol < err -> Nat.eqb size 0 = false -> inner c0 = Ok (c, nit, ok) ->
    let e := supnorm size (fun q => c q - c0 q) in
    snd (ti_rows size inner tol (S k) it err prev c0 controls) = snd (ti_rows size inner tol k (S it) e (Some e) c (Some c)).
  Proof.
    intros k it err prev c0 controls c nit ok H1 H2 H3. cbn [ti_rows]. destruct (Rlt_dec tol err); [|contradiction].
    rewrite H2, H3. cbv zeta. destruct (ti_rows size inner tol k _ _ _ c _) as [rows r1]. reflexivity.
  Qed.

  Lemma ti_rows_limited : forall fuel it err prev c0 controls k run,
    (forall m, run m = snd (ti_rows size inner tol m it err prev c0 controls)) ->
    let rows := fst (ti_rows size inner tol fuel it err prev c0 controls) in
    (k < length rows)%nat ->
    let row := nth k rows (TiRow 0 0 None 0) in
    exists c c' ok, (k = O -> c = c0) /\
      ((0 < k)%nat -> exists e, run k = Ok (Some c, (it + k)%nat, e)) /\
      inner c = Ok (c', tr_nit row, ok) /\ tr_error row = supnorm size (fun q => c' q - c q) /\
      run (S k) = Ok (Some c', (it + S k)%nat, tr_error row).
  Proof.
    induction fuel as [|fuel IH]; intros it err prev c0 controls k run HR; [cbn; intros; lia|].
    cbn [ti_rows]. destruct (Rlt_dec tol err) as [H1|H1]; [|cbn; intros; lia].
    destruct (Nat.eqb size 0) eqn:H2; [cbn; intros; lia|].
    destruct (inner c0) as [[[c nit] ok]|e0] eqn:H3; [|cbn; intros; lia]. cbv zeta.
    set (e := supnorm size (fun q => c q - c0 q)) in *.
    assert (ST : forall k, run (S k) = snd (ti_rows size inner tol k (S it) e (Some e) c (Some c)))
      by (intros m; rewrite HR; exact (ti_rows_step m it err prev c0 controls c nit ok H1 H2 H3)).
    specialize (fun k => IH (S it) e (Some e) c (Some c) k _ (fun m => eq_refl)). cbv zeta in IH.
    destruct (ti_rows size inner tol fuel (S it) e (Some e) c (Some c)) as [rows r] eqn:E. cbn [fst] in *.
    intros Hk. cbn [length] in Hk.
    assert (R1 : run 1%nat = Ok (Some c, (it + 1)%nat, e)) by (rewrite ST, Nat.add_1_r; reflexivity).
    destruct k as [|k].
    - exists c0, c, ok. cbn [nth tr_nit tr_error]. split; [reflexivity|]. split; [lia|]. split; [exact H3|]. split; [reflexivity | exact R1].
    - destruct (IH k ltac:(lia)) as (d & d' & ok' & I1 & I2 & I3 & I4 & I5). exists d, d', ok'. cbn [nth].
      split; [discriminate|]. split.
      + intros _. destruct k as [|k]; [exists e; rewrite (I1 eq_refl); exact R1|].
        destruct (I2 ltac:(lia)) as (e' & Q). exists e'. rewrite ST, Q. do 3 f_equal. lia.
      + split; [exact I3|]. split; [exact I4|]. rewrite ST, I5. do 3 f_equal. lia.
  Qed.
End Limited.

Lemma ti_rows_shown : forall g f d s n_x ip lsolve nan tol im b maxit c0 k,
  let inner := ti_inner g f d s n_x ip lsolve nan im b in
  let run m := ti_loop g f d s n_x ip lsolve nan tol im b m 0 10 c0 None in
  let rows := fst (ti_rows (size d s n_x) inner tol maxit 0 10 None c0 None) in
  (k < length rows)%nat ->
  let row := nth k rows (TiRow 0 0 None 0) in
  exists c c' ok, (k = O -> c = c0) /\ ((0 < k)%nat -> exists e, run k = Ok (Some c, k, e)) /\
    inner c = Ok (c', tr_nit row, ok) /\ tr_error row = supnorm (size d s n_x) (fun q => c' q - c q) /\
    run (S k) = Ok (Some c', S k, tr_error row).
Proof.
  intros g f d s n_x ip lsolve nan tol im b maxit c0 k. cbv zeta. intros Hk.
  exact (ti_rows_limited (size d s n_x) (ti_inner g f d s n_x ip lsolve nan im b) tol maxit 0 10 None c0 None k
           (fun m => ti_loop g f d s n_x ip lsolve nan tol im b m 0 10 c0 None)
           (fun m => eq_sym (ti_rows_result g f d s n_x ip lsolve nan tol im b m 0 10 None c0 None)) Hk).
Qed.

Open Scope string_scope.

Lemma table_layout : forall F sci repr sci_int cols,
  plain_columns cols -> String.length (sci_int 0%Z) = 9%nat ->
  let p := new_printer cols true in
  let rule := times "-"%char (table_width cols) in
  exists names,
    @print_header F sci repr sci_int p None = [rule; names; rule] /\
    (forall msg, exists pad, print_header sci repr sci_int p (Some msg) = [rule; "| " ++ msg ++ times " "%char pad ++ "|"; rule; names; rule]) /\
    (forall elapsed, exists pad,
       let line := "| Elapsed: " ++ elapsed ++ " seconds." ++ times " "%char pad ++ "|" in
       print_finished sci repr sci_int p elapsed = [rule; line; rule; ""] /\
       ((21 + String.length elapsed <= table_width cols)%nat -> String.length line = table_width cols)).
Proof.
  intros F sci repr sci_int cols H H0 p rule. exists (title p).
  assert (W : width sci repr sci_int p = table_width cols) by (apply width_p; assumption).
  assert (L : print_line F sci repr sci_int p = [rule]) by (unfold print_line, p, rule; cbn [pr_verbose new_printer]; fold p; rewrite W; reflexivity).
  split; [unfold print_header; rewrite L; reflexivity|]. split.
  - intros msg. exists (table_width cols - String.length ("| " ++ msg) - 1)%nat. unfold print_header. rewrite L. unfold boxed. rewrite W.
    cbn [pr_verbose p new_printer app]. rewrite app_assoc_s. reflexivity.
  - intros elapsed. exists (table_width cols - String.length ("| Elapsed: " ++ elapsed ++ " seconds.") - 1)%nat. cbv zeta. split.
    + unfold print_finished. rewrite L. unfold boxed. rewrite W. cbn [pr_verbose p new_printer app]. rewrite !app_assoc_s. reflexivity.
    + intros Hf. rewrite !length_app, length_times. cbn [String.length]. lia.
Qed.
