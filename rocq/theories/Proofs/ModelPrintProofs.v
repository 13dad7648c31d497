(** Proofs about print(model). *)
From Coq Require Import String Ascii List Bool Reals Arith DecimalString Lia Lra.
From Verif.Base Require Import Prelude Dict.
From Verif.Model Require Import Verbose ModelPrint.
From Verif.Spec Require Import ModelPrint.
Import ListNotations.
Open Scope string_scope.

Lemma mentions_app : forall c a b, mentions c (a ++ b) = mentions c a || mentions c b.
Proof.
  induction a as [|x a IH]; intros b; simpl; [reflexivity|]. rewrite IH. now rewrite orb_assoc.
Qed.

Lemma mentions_spaces : forall k, mentions esc (times " " k) = false.
Proof. induction k as [|k IH]; simpl; [reflexivity | exact IH]. Qed.

Lemma plain_uint : forall d, mentions esc (NilEmpty.string_of_uint d) = false.
Proof. induction d; simpl; auto. Qed.

Lemma plain_nat : forall i, mentions esc (nat_str i) = false.
Proof. intros i. unfold nat_str, NilZero.string_of_uint. destruct (Nat.to_uint i); try reflexivity; apply (plain_uint _). Qed.

Lemma plain_number : forall i, mentions esc (" " ++ pad_right 2 (nat_str i) ++ " : ") = false.
Proof. intros i. rewrite !mentions_app. unfold pad_right. rewrite mentions_app, plain_nat, mentions_spaces. reflexivity. Qed.

Section Text.
  Variable fixed4 : option R -> string.
  Hypothesis Hf : forall v, plain (fixed4 v).

  Lemma value_flag : forall v, mentions esc (value_text false fixed4 v) = off v.
  Proof.
    intros v. unfold value_text. destruct v as [r|].
    - unfold tiny. destruct (Rlt_dec (Rabs r) (1 / 100000000)) as [H|H].
      + unfold large. rewrite Rabs_R0. destruct (Rlt_dec (1 / 100000000) 0) as [H'|_]; [exfalso; lra|].
        unfold off. destruct (Rlt_dec (1 / 100000000) (Rabs r)) as [H'|_]; [exfalso; lra|]. apply Hf.
      + unfold large, off. destruct (Rlt_dec (1 / 100000000) (Rabs r)); [reflexivity | apply Hf].
    - apply Hf.
  Qed.

  Definition line_of (i : nat) (eq : string) (v : option (option R)) : string :=
    (" " ++ pad_right 2 (nat_str (S i)) ++ " : ") ++ match v with Some v => value_text false fixed4 v ++ " : " ++ eq | None => eq end.

  Lemma line_flag : forall i eq v, plain eq -> mentions esc (line_of i eq v) = match v with Some v => off v | None => false end.
  Proof.
    intros i eq v He. unfold line_of. rewrite mentions_app, plain_number. cbn [orb]. destruct v as [v|]; [|exact He].
    rewrite !mentions_app, value_flag, He. change (mentions esc " : ") with false. now rewrite !orb_false_r.
  Qed.

  Lemma equation_lines_ok : forall eqs i rs l, equation_lines false fixed4 i eqs (Some rs) = Ok l ->
    (length eqs <= length rs)%nat /\ length l = length eqs /\
    forall k eq, nth_error eqs k = Some eq -> exists v, nth_error rs k = Some v /\ nth_error l k = Some (line_of (i + k) eq (Some v)).
  Proof.
    induction eqs as [|e eqs IH]; intros i rs l H; cbn [equation_lines] in H.
    - injection H as <-. split; [simpl; lia|]. split; [reflexivity|]. intros [|k] eq E; discriminate E.
    - destruct rs as [|v vs]; [discriminate H|].
      destruct (equation_lines false fixed4 (S i) eqs (Some vs)) as [l'|ex] eqn:E; [|discriminate H]. cbn [bind] in H. injection H as <-.
      destruct (IH _ _ _ E) as (A & B & C). split; [simpl; lia|]. split; [simpl; lia|].
      intros [|k] eq Hk; cbn [nth_error] in *.
      + injection Hk as <-. exists v. split; [reflexivity|]. rewrite Nat.add_0_r. reflexivity.
      + destruct (C k eq Hk) as (w & W1 & W2). exists w. split; [exact W1|]. rewrite W2. do 2 f_equal. lia.
  Qed.

  Lemma equation_lines_none : forall eqs i, exists l, equation_lines false fixed4 i eqs None = Ok l /\ length l = length eqs /\
    forall k eq, nth_error eqs k = Some eq -> nth_error l k = Some (line_of (i + k) eq None).
  Proof.
    induction eqs as [|e eqs IH]; intros i; cbn [equation_lines].
    - exists []. split; [reflexivity|]. split; [reflexivity|]. intros [|k] eq E; discriminate E.
    - destruct (IH (S i)) as (l & E & B & C). rewrite E. cbn [bind]. eexists. split; [reflexivity|]. split; [simpl; lia|].
      intros [|k] eq Hk; cbn [nth_error] in *.
      + injection Hk as <-. rewrite Nat.add_0_r. reflexivity.
      + rewrite (C k eq Hk). do 2 f_equal. lia.
  Qed.

  Lemma equation_lines_total : forall eqs i rs, (length eqs <= length rs)%nat ->
    exists l, equation_lines false fixed4 i eqs (Some rs) = Ok l.
  Proof.
    induction eqs as [|e eqs IH]; intros i rs H; cbn [equation_lines]; [eexists; reflexivity|].
    destruct rs as [|v vs]; [simpl in H; lia|]. destruct (IH (S i) vs) as (l & E); [simpl in H; lia|]. rewrite E. eexists. reflexivity.
  Qed.

  Definition flags (l : list string) : nat := length (filter (mentions esc) l).

  Lemma flags_app : forall a b, flags (a ++ b)%list = (flags a + flags b)%nat.
  Proof. intros. unfold flags. now rewrite filter_app, app_length. Qed.

  Lemma flags_some : forall eqs i rs l, equation_lines false fixed4 i eqs (Some rs) = Ok l ->
    Forall plain eqs -> flags l = count_off (firstn (length eqs) rs).
  Proof.
    induction eqs as [|e eqs IH]; intros i rs l H Hp; cbn [equation_lines] in H.
    - injection H as <-. reflexivity.
    - destruct rs as [|v vs]; [discriminate H|].
      destruct (equation_lines false fixed4 (S i) eqs (Some vs)) as [l'|ex] eqn:E; [|discriminate H]. cbn [bind] in H. injection H as <-.
      inversion Hp as [|? ? He Hes]; subst. specialize (IH _ _ _ E Hes). unfold flags, count_off in *. cbn [length firstn filter].
      assert (L := line_flag i e (Some v) He). unfold line_of in L.
      match goal with |- context [mentions esc ?t] => replace (mentions esc t) with (off v) by (symmetry; exact L) end.
      destruct (off v); cbn [length]; now rewrite IH.
  Qed.

  Lemma flags_none : forall eqs i l, equation_lines false fixed4 i eqs None = Ok l -> Forall plain eqs -> flags l = 0%nat.
  Proof.
    induction eqs as [|e eqs IH]; intros i l H Hp; cbn [equation_lines] in H.
    - injection H as <-. reflexivity.
    - destruct (equation_lines false fixed4 (S i) eqs None) as [l'|ex] eqn:E; [|discriminate H]. cbn [bind] in H. injection H as <-.
      inversion Hp as [|? ? He Hes]; subst. specialize (IH _ _ E Hes). unfold flags in *. cbn [filter].
      assert (L := line_flag i e None He). unfold line_of in L.
      match goal with |- context [mentions esc ?t] => replace (mentions esc t) with false by (symmetry; exact L) end. exact IH.
  Qed.

  Definition header (name type file : string) : list string :=
    ["" ; "        Model:"; "        ------"; "        name: """ ++ (name ++ """"); "        type: """ ++ (type ++ """");
     "        file: """ ++ file; ""; "Equations:"; "----------"; ""].

  Lemma model_str_inv : forall name type file equations defs tr ar lines,
    model_str false fixed4 name type file equations defs tr ar = Ok lines ->
    exists et ea lt la ld, dget equations "transition" = Some et /\ dget equations "arbitrage" = Some ea /\
      equation_lines false fixed4 0 et (Some tr) = Ok lt /\ equation_lines false fixed4 0 ea (Some ar) = Ok la /\
      equation_lines false fixed4 0 (definition_lines defs) None = Ok ld /\
      lines = (header name type file ++
             ("transition" :: lt ++ [""]) ++ ("arbitrage" :: la ++ [""]) ++ ("definitions" :: ld ++ [""]))%list.
  Proof.
    intros name type file equations defs tr ar lines H. unfold model_str, text_blocks in H. cbv zeta in H.
    rewrite !dget_dset in H. change (String.eqb "transition" "definitions") with false in H.
    change (String.eqb "arbitrage" "definitions") with false in H. change (String.eqb "definitions" "definitions") with true in H. cbv iota in H.
    destruct (dget equations "transition") as [et|]; [|discriminate H].
    unfold block_lines in H.
    destruct (equation_lines false fixed4 0 et (Some tr)) as [lt|] eqn:E1; [|discriminate H]. cbn [bind] in H.
    destruct (dget equations "arbitrage") as [ea|]; [|discriminate H].
    destruct (equation_lines false fixed4 0 ea (Some ar)) as [la|] eqn:E2; [|discriminate H]. cbn [bind] in H.
    destruct (equation_lines false fixed4 0 (definition_lines defs) None) as [ld|] eqn:E3; [|discriminate H]. cbn [bind] in H.
    injection H as <-. exists et, ea, lt, la, ld. repeat (split; [reflexivity || assumption|]). reflexivity.
  Qed.

  (** The number of lines in red. *)
  Lemma red_lines : forall name type file equations defs tr ar lines,
    model_str false fixed4 name type file equations defs tr ar = Ok lines ->
    plain name -> plain type -> plain file -> (forall g eqs, dget equations g = Some eqs -> Forall plain eqs) ->
    Forall (fun e => plain (fst e) /\ plain (snd e)) defs ->
    exists et ea, dget equations "transition" = Some et /\ dget equations "arbitrage" = Some ea /\
      flags lines = (count_off (firstn (length et) tr) + count_off (firstn (length ea) ar))%nat.
  Proof.
    intros name type file equations defs tr ar lines H Hn Ht Hfi Hq Hd.
    destruct (model_str_inv _ _ _ _ _ _ _ _ H) as (et & ea & lt & la & ld & A & B & E1 & E2 & E3 & ->).
    exists et, ea. split; [exact A|]. split; [exact B|]. rewrite !flags_app.
    assert (D : Forall plain (definition_lines defs)).
    { unfold definition_lines. clear - Hd. induction defs as [|e defs IH]; cbn [map]; constructor.
      - inversion Hd as [|? ? [P Q] _]; subst. unfold plain in *. rewrite !mentions_app, P, Q. reflexivity.
      - apply IH. now inversion Hd. }
    assert (C : forall n l, mentions esc n = false -> flags (n :: l ++ [""])%list = flags l).
    { intros n l E. unfold flags. cbn [filter]. rewrite E, filter_app, app_length. cbn. lia. }
    rewrite !C by reflexivity.
    rewrite (flags_some _ _ _ _ E1 (Hq _ _ A)), (flags_some _ _ _ _ E2 (Hq _ _ B)), (flags_none _ _ _ E3 D).
    unfold plain in *.
    assert (Z : flags (header name type file) = 0%nat).
    { unfold flags, header. cbn [filter]. rewrite !mentions_app, Hn, Ht, Hfi. reflexivity. }
    rewrite Z. lia.
  Qed.

  (** Where an equation is. *)
  Lemma equation_shown : forall name type file equations defs tr ar lines,
    model_str false fixed4 name type file equations defs tr ar = Ok lines ->
    forall g rs, (g = "transition" /\ rs = tr \/ g = "arbitrage" /\ rs = ar) ->
    exists eqs start, dget equations g = Some eqs /\ nth_error lines start = Some g /\
      forall i eq, nth_error eqs i = Some eq -> exists v, nth_error rs i = Some v /\
        nth_error lines (S start + i) = Some (line_of i eq (Some v)).
  Proof.
    intros name type file equations defs tr ar lines H g rs Hg.
    destruct (model_str_inv _ _ _ _ _ _ _ _ H) as (et & ea & lt & la & ld & A & B & E1 & E2 & E3 & ->).
    destruct (equation_lines_ok _ _ _ _ E1) as (_ & L1 & C1). destruct (equation_lines_ok _ _ _ _ E2) as (_ & L2 & C2).
    destruct Hg as [[-> ->]|[-> ->]].
    - exists et, 10%nat. split; [exact A|]. split; [reflexivity|]. intros i eq Hi.
      destruct (C1 i eq Hi) as (v & V1 & V2). exists v. split; [exact V1|].
      assert (i < length lt)%nat by (apply nth_error_Some; congruence).
      change (nth_error ((lt ++ [""]) ++ ("arbitrage" :: la ++ [""]) ++ ("definitions" :: ld ++ [""]))%list i = Some (line_of i eq (Some v))).
      rewrite <- app_assoc, nth_error_app1 by assumption. exact V2.
    - exists ea, (12 + length lt)%nat. split; [exact B|]. split.
      + change (nth_error ((lt ++ [""]) ++ ("arbitrage" :: la ++ [""]) ++ ("definitions" :: ld ++ [""]))%list (1 + length lt) = Some "arbitrage").
        rewrite nth_error_app2 by (rewrite app_length; simpl; lia). rewrite app_length. cbn [length].
        replace (1 + length lt - (length lt + 1))%nat with 0%nat by lia. reflexivity.
      + intros i eq Hi. destruct (C2 i eq Hi) as (v & V1 & V2). exists v. split; [exact V1|].
        assert (i < length la)%nat by (apply nth_error_Some; congruence).
        change (nth_error ((lt ++ [""]) ++ ("arbitrage" :: la ++ [""]) ++ ("definitions" :: ld ++ [""]))%list (S (1 + length lt) + i) = Some (line_of i eq (Some v))).
        rewrite nth_error_app2 by (rewrite app_length; simpl; lia). rewrite app_length. cbn [length].
        replace (S (1 + length lt) + i - (length lt + 1))%nat with (S i) by lia. cbn [app nth_error].
        rewrite <- app_assoc, nth_error_app1 by assumption. exact V2.
  Qed.

  Lemma equation_shown_plain : forall name type file equations defs tr ar lines,
    model_str false fixed4 name type file equations defs tr ar = Ok lines ->
    forall g rs, (g = "transition" /\ rs = tr \/ g = "arbitrage" /\ rs = ar) ->
    exists eqs start, dget equations g = Some eqs /\ nth_error lines start = Some g /\
      forall i eq, nth_error eqs i = Some eq -> exists v middle, nth_error rs i = Some v /\
        nth_error lines (S start + i) = Some ((" " ++ pad_right 2 (nat_str (S i)) ++ " : ") ++ middle ++ " : " ++ eq) /\
        (mentions esc middle = true <-> exists r, v = Some r /\ (1 / 100000000 < Rabs r)%R).
  Proof.
    intros name type file equations defs tr ar lines H g rs Hg.
    destruct (equation_shown _ _ _ _ _ _ _ _ H g rs Hg) as (eqs & start & A & B & C). exists eqs, start.
    split; [exact A|]. split; [exact B|]. intros i eq Hi. destruct (C i eq Hi) as (v & V1 & V2).
    exists v, (value_text false fixed4 v). split; [exact V1|]. split; [exact V2|]. rewrite value_flag. unfold off.
    destruct v as [r|].
    - destruct (Rlt_dec (1 / 100000000) (Rabs r)) as [H1|H1]; split; try discriminate; try reflexivity.
      + intros _. exists r. split; [reflexivity | exact H1].
      + intros (r' & E & H2). injection E as <-. contradiction.
    - split; [discriminate|]. intros (r' & E & _). discriminate E.
  Qed.
End Text.

Lemma other_blocks_hidden : forall disabled fixed4 name type file equations defs tr ar g eqs,
  g <> "transition" -> g <> "arbitrage" ->
  model_str disabled fixed4 name type file (dset equations g eqs) defs tr ar =
  model_str disabled fixed4 name type file equations defs tr ar.
Proof.
  intros disabled fixed4 name type file equations defs tr ar g eqs H1 H2. unfold model_str, text_blocks. cbv zeta.
  rewrite !dget_dset. change (String.eqb "transition" "definitions") with false.
  change (String.eqb "arbitrage" "definitions") with false. change (String.eqb "definitions" "definitions") with true. cbv iota.
  assert (E1 : String.eqb "transition" g = false) by (apply String.eqb_neq; congruence).
  assert (E2 : String.eqb "arbitrage" g = false) by (apply String.eqb_neq; congruence).
  rewrite E1, E2. reflexivity.
Qed.

Lemma nan_hidden : forall disabled fixed4 i eq,
  equation_lines disabled fixed4 i [eq] (Some [None]) =
    Ok [(" " ++ pad_right 2 (nat_str (S i)) ++ " : ") ++ fixed4 None ++ " : " ++ eq].
Proof. reflexivity. Qed.

Lemma html_flag : forall fixed4 fixed3 v, (forall u, prefix "<" (fixed3 u) = false) ->
  prefix "<" (html_value fixed4 fixed3 v) = off v.
Proof.
  intros fixed4 fixed3 v H. unfold html_value. destruct v as [r|]; [|apply H].
  unfold large, off. destruct (Rlt_dec (1 / 100000000) (Rabs r)); [reflexivity | apply H].
Qed.

Lemma model_str_total : forall fixed4 name type file equations defs tr ar,
  (exists lines, model_str false fixed4 name type file equations defs tr ar = Ok lines) <->
  (exists et ea, dget equations "transition" = Some et /\ dget equations "arbitrage" = Some ea /\
     (length et <= length tr)%nat /\ (length ea <= length ar)%nat).
Proof.
  intros fixed4 name type file equations defs tr ar. split.
  - intros (lines & H). destruct (model_str_inv _ _ _ _ _ _ _ _ _ H) as (et & ea & lt & la & ld & A & B & E1 & E2 & E3 & _).
    exists et, ea. split; [exact A|]. split; [exact B|].
    split; [exact (proj1 (equation_lines_ok _ _ _ _ _ E1)) | exact (proj1 (equation_lines_ok _ _ _ _ _ E2))].
  - intros (et & ea & A & B & L1 & L2). unfold model_str, text_blocks. cbv zeta.
    rewrite !dget_dset. change (String.eqb "transition" "definitions") with false.
    change (String.eqb "arbitrage" "definitions") with false. change (String.eqb "definitions" "definitions") with true. cbv iota.
    rewrite A, B. unfold block_lines.
    destruct (equation_lines_total fixed4 et 0 tr L1) as (lt & ->). cbn [bind].
    destruct (equation_lines_total fixed4 ea 0 ar L2) as (la & ->). cbn [bind].
    destruct (equation_lines_none fixed4 (definition_lines defs) 0) as (ld & -> & _). cbn [bind]. eexists. reflexivity.
Qed.

Lemma equation_lines_short : forall disabled fixed4 eqs i rs, (length rs < length eqs)%nat ->
  equation_lines disabled fixed4 i eqs (Some rs) = Err ExcIndex.
Proof.
  intros disabled fixed4. induction eqs as [|e eqs IH]; intros i rs H; [inversion H|].
  destruct rs as [|v vs]; [reflexivity|]. cbn [equation_lines]. rewrite IH by (cbn [length] in H; lia). reflexivity.
Qed.

Lemma equation_lines_long : forall disabled fixed4 eqs i rs, (length eqs <= length rs)%nat ->
  exists l, equation_lines disabled fixed4 i eqs (Some rs) = Ok l.
Proof.
  intros disabled fixed4. induction eqs as [|e eqs IH]; intros i rs H; [eexists; reflexivity|].
  destruct rs as [|v vs]; [inversion H|]. cbn [equation_lines].
  destruct (IH (S i) vs) as (l & ->); [cbn [length] in H; lia|]. eexists; reflexivity.
Qed.

Lemma model_str_errors : forall disabled fixed4 name type file equations defs tr ar,
  (dget equations "transition" = None -> model_str disabled fixed4 name type file equations defs tr ar = Err ExcKey) /\
  (forall et, dget equations "transition" = Some et ->
     ((length tr < length et)%nat -> model_str disabled fixed4 name type file equations defs tr ar = Err ExcIndex) /\
     ((length et <= length tr)%nat ->
        (dget equations "arbitrage" = None -> model_str disabled fixed4 name type file equations defs tr ar = Err ExcKey) /\
        (forall ea, dget equations "arbitrage" = Some ea -> (length ar < length ea)%nat ->
           model_str disabled fixed4 name type file equations defs tr ar = Err ExcIndex))).
Proof.
  intros disabled fixed4 name type file equations defs tr ar. unfold model_str, text_blocks. cbv zeta.
  rewrite !dget_dset. change (String.eqb "transition" "definitions") with false.
  change (String.eqb "arbitrage" "definitions") with false. cbv iota. split.
  - intros ->. reflexivity.
  - intros et ->. unfold block_lines. split.
    + intros H. rewrite (equation_lines_short _ _ _ _ _ H). reflexivity.
    + intros H. destruct (equation_lines_long disabled fixed4 et 0 tr H) as (l & ->). cbn [bind]. split.
      * intros ->. reflexivity.
      * intros ea -> K. rewrite (equation_lines_short _ _ _ _ _ K). reflexivity.
Qed.

Lemma html_rows_short : forall fixed4 fixed3 tex eqs h rs, (length rs < length eqs)%nat ->
  html_rows fixed4 fixed3 tex h eqs (Some rs) = Err ExcIndex.
Proof.
  intros fixed4 fixed3 tex. induction eqs as [|e eqs IH]; intros h rs H; [inversion H|].
  destruct rs as [|v vs]; [reflexivity|]. cbn [html_rows]. rewrite IH by (cbn [length] in H; lia). reflexivity.
Qed.

Section Html.
  Variables (fixed4 fixed3 : option R -> string) (tex : string -> string).

  Lemma html_rows_some : forall eqs h rs l, html_rows fixed4 fixed3 tex h eqs (Some rs) = Ok l ->
    forall k eq, nth_error eqs k = Some eq -> exists v, nth_error rs k = Some v /\
      nth_error l k = Some ((if Nat.eqb k 0 then h else "")%string, tex eq, html_value fixed4 fixed3 v).
  Proof.
    induction eqs as [|e eqs IH]; intros h rs l H k eq Hk; cbn [html_rows] in H; [destruct k; discriminate Hk|].
    destruct rs as [|v vs]; [discriminate H|].
    destruct (html_rows fixed4 fixed3 tex "" eqs (Some vs)) as [l'|] eqn:E; [|discriminate H]. cbn [bind] in H. injection H as <-.
    destruct k as [|k]; cbn [nth_error Nat.eqb] in *.
    - injection Hk as <-. exists v. split; reflexivity.
    - destruct (IH _ _ _ E k eq Hk) as (w & W1 & W2). exists w. split; [exact W1|]. rewrite W2. now destruct (Nat.eqb k 0).
  Qed.

  Lemma html_rows_none : forall eqs h l, html_rows fixed4 fixed3 tex h eqs None = Ok l ->
    forall k eq, nth_error eqs k = Some eq -> nth_error l k = Some ((if Nat.eqb k 0 then h else "")%string, tex eq, ""%string).
  Proof.
    induction eqs as [|e eqs IH]; intros h l H k eq Hk; cbn [html_rows] in H; [destruct k; discriminate Hk|].
    destruct (html_rows fixed4 fixed3 tex "" eqs None) as [l'|] eqn:E; [|discriminate H]. cbn [bind] in H. injection H as <-.
    destruct k as [|k]; cbn [nth_error Nat.eqb] in *.
    - injection Hk as <-. reflexivity.
    - rewrite (IH _ _ E k eq Hk). now destruct (Nat.eqb k 0).
  Qed.

  Lemma html_blocks_shown : forall residuals equations l, html_blocks fixed4 fixed3 tex equations residuals = Ok l ->
    forall g eqs, dget equations g = Some eqs -> exists start, forall i eq, nth_error eqs i = Some eq ->
      exists cell, nth_error l (start + i) = Some ((if Nat.eqb i 0 then g else "")%string, tex eq, cell) /\
      (existsb (String.eqb g) ["arbitrage"; "transition"; "arbitrage_exp"] = true ->
         exists rs v, dget residuals g = Some rs /\ nth_error rs i = Some v /\ cell = html_value fixed4 fixed3 v) /\
      (existsb (String.eqb g) ["arbitrage"; "transition"; "arbitrage_exp"] = false -> cell = ""%string).
  Proof.
    intros residuals. induction equations as [|[n es] equations IH]; intros l H g eqs Hg; [discriminate Hg|].
    cbn [html_blocks] in H.
    destruct (if existsb (String.eqb n) ["arbitrage"; "transition"; "arbitrage_exp"]
              then match dget residuals n with
                   | Some rs => html_rows fixed4 fixed3 tex n es (Some rs)
                   | None => match es with [] => Ok [] | _ => Err ExcKey end
                   end
              else html_rows fixed4 fixed3 tex n es None) as [a|] eqn:E; [|discriminate H]. cbn [bind] in H.
    destruct (html_blocks fixed4 fixed3 tex equations residuals) as [b|] eqn:E2; [|discriminate H]. cbn [bind] in H. injection H as <-.
    cbn [dget] in Hg. destruct (String.eqb g n) eqn:En.
    - apply String.eqb_eq in En. subst n. injection Hg as ->. exists 0%nat. intros i eq Hi. rewrite Nat.add_0_l.
      destruct (existsb (String.eqb g) ["arbitrage"; "transition"; "arbitrage_exp"]) eqn:Ex.
      + destruct (dget residuals g) as [rs|] eqn:Er.
        * destruct (html_rows_some _ _ _ _ E i eq Hi) as (v & V1 & V2). eexists. split.
          { rewrite nth_error_app1; [exact V2|]. apply nth_error_Some. congruence. }
          split; [|discriminate]. intros _. exists rs, v. split; [reflexivity|]. split; [exact V1 | reflexivity].
        * destruct eqs; [destruct i; discriminate Hi | discriminate E].
      + assert (V2 := html_rows_none _ _ _ E i eq Hi). eexists. split.
        { rewrite nth_error_app1; [exact V2|]. apply nth_error_Some. congruence. }
        split; [discriminate | reflexivity].
    - destruct (IH b eq_refl g eqs Hg) as (start & S). exists (length a + start)%nat. intros i eq Hi.
      destruct (S i eq Hi) as (cell & C1 & C2). exists cell. split; [|exact C2].
      rewrite nth_error_app2 by lia. rewrite <- C1. f_equal. lia.
  Qed.

  (** The text and the table flag the same equations. *)
  Lemma same_flags : forall name type file equations defs tr ar lines rows,
    (forall v, plain (fixed4 v)) -> (forall v, prefix "<" (fixed3 v) = false) ->
    model_str false fixed4 name type file equations defs tr ar = Ok lines ->
    model_html fixed4 fixed3 tex equations defs tr ar = Ok rows ->
    forall g rs, (g = "transition" /\ rs = tr \/ g = "arbitrage" /\ rs = ar) ->
    exists eqs start first, dget equations g = Some eqs /\ nth_error lines start = Some g /\
      forall i eq, nth_error eqs i = Some eq -> plain eq -> exists line cell,
        nth_error lines (S start + i) = Some line /\
        nth_error rows (first + i) = Some ((if Nat.eqb i 0 then g else "")%string, tex eq, cell) /\
        mentions esc line = prefix "<" cell.
  Proof.
    intros name type file equations defs tr ar lines rows Hf4 Hf3 H Hr g rs Hg.
    destruct (equation_shown _ _ _ _ _ _ _ _ _ H g rs Hg) as (eqs & start & A & B & C).
    unfold model_html in Hr.
    assert (D : dget (dset equations "definitions" (definition_lines defs)) g = Some eqs).
    { rewrite dget_dset. destruct Hg as [[-> _]|[-> _]]; exact A. }
    destruct (html_blocks_shown _ _ _ Hr g eqs D) as (first & F).
    exists eqs, start, first. split; [exact A|]. split; [exact B|]. intros i eq Hi Hp.
    destruct (C i eq Hi) as (v & V1 & V2). destruct (F i eq Hi) as (cell & F1 & F2 & _).
    exists (line_of fixed4 i eq (Some v)), cell. split; [exact V2|]. split; [exact F1|].
    rewrite line_flag by assumption.
    assert (Ex : existsb (String.eqb g) ["arbitrage"; "transition"; "arbitrage_exp"] = true /\
      dget [("transition", tr); ("arbitrage", ar)] g = Some rs) by (destruct Hg as [[-> ->]|[-> ->]]; split; reflexivity).
    destruct Ex as [Ex1 Ex2]. destruct (F2 Ex1) as (rs' & w & R1 & R2 & ->). rewrite Ex2 in R1. injection R1 as <-.
    rewrite V1 in R2. injection R2 as <-. symmetry. now apply html_flag.
  Qed.
End Html.

(** A case. *)
Definition demo_equations : dict (list string) :=
  [("transition", ["k = k(-1) + i(-1)"]); ("arbitrage", ["i = 1"; "n = 2"]); ("value", ["v = u"])].
Definition demo_text (v : option R) : string :=
  match v with Some r => if Req_EM_T r 0 then "0.0000" else "0.5000" | None => "nan" end.

Lemma demo_plain : forall v, plain (demo_text v).
Proof. intros [r|]; [|reflexivity]. unfold demo_text. destruct (Req_EM_T r 0); reflexivity. Qed.

Lemma demo_off0 : off (Some 0%R) = false.
Proof. unfold off. rewrite Rabs_R0. destruct (Rlt_dec (1 / 100000000) 0); [exfalso; lra | reflexivity]. Qed.
Lemma demo_off1 : off (Some (1/2)%R) = true.
Proof. unfold off. rewrite Rabs_pos_eq by lra. destruct (Rlt_dec (1 / 100000000) (1/2)); [reflexivity | exfalso; lra]. Qed.

Lemma demo_flags : exists lines,
  model_str false demo_text "m" "dtcc" "m.yaml" demo_equations [("y", "k")] [Some 0%R] [Some (1/2)%R; Some 0%R] = Ok lines /\
  flags lines = 1%nat.
Proof.
  destruct (proj2 (model_str_total demo_text "m" "dtcc" "m.yaml" demo_equations [("y", "k")] [Some 0%R] [Some (1/2)%R; Some 0%R])) as (lines & H).
  { exists ["k = k(-1) + i(-1)"], ["i = 1"; "n = 2"]. split; [reflexivity|]. split; [reflexivity|]. simpl. lia. }
  exists lines. split; [exact H|].
  destruct (red_lines demo_text demo_plain _ _ _ _ _ _ _ _ H) as (et & ea & A & B & C); try reflexivity.
  - intros g eqs Hg. unfold demo_equations in Hg. cbn [dget] in Hg.
    repeat (match type of Hg with context [String.eqb ?a ?b] => destruct (String.eqb a b) end; [injection Hg as <-; repeat constructor|]).
    discriminate Hg.
  - repeat constructor.
  - injection A as <-. injection B as <-. rewrite C. cbn [length firstn]. unfold count_off. cbn [filter].
    rewrite demo_off0, demo_off1. reflexivity.
Qed.

(** Tables that cannot be made. *)
Lemma dset_in_other : forall (V : Type) (d : dict V) k v g x, g <> k -> (In (g, x) (dset d k v) <-> In (g, x) d).
Proof.
  intros V d k v g x H. induction d as [|[k' v'] d IH]; cbn [dset].
  - split; [intros [E|[]]; congruence | intros []].
  - destruct (String.eqb k k') eqn:E; cbn [In].
    + apply String.eqb_eq in E. subst k'. split; intros [F|F]; try (now right); congruence.
    + rewrite IH. reflexivity.
Qed.

Definition short_block (tr ar : list (option R)) (b : string * list string) : Prop :=
  (fst b = "transition" /\ (length tr < length (snd b))%nat) \/ (fst b = "arbitrage" /\ (length ar < length (snd b))%nat).
Definition expectations (b : string * list string) : Prop := fst b = "arbitrage_exp" /\ snd b <> [].

Lemma html_rows_plain : forall fixed4 fixed3 tex eqs h, exists l, html_rows fixed4 fixed3 tex h eqs None = Ok l.
Proof.
  intros fixed4 fixed3 tex. induction eqs as [|e eqs IH]; intros h; [eexists; reflexivity|]. cbn [html_rows].
  destruct (IH "") as (l & ->). eexists; reflexivity.
Qed.

Lemma html_rows_long : forall fixed4 fixed3 tex eqs h rs, (length eqs <= length rs)%nat ->
  exists l, html_rows fixed4 fixed3 tex h eqs (Some rs) = Ok l.
Proof.
  intros fixed4 fixed3 tex. induction eqs as [|e eqs IH]; intros h rs H; [eexists; reflexivity|].
  destruct rs as [|v vs]; [inversion H|]. cbn [html_rows].
  destruct (IH "" vs) as (l & ->); [cbn [length] in H; lia|]. eexists; reflexivity.
Qed.

(** One block. *)
Lemma html_block_cases : forall fixed4 fixed3 tex tr ar name eqs,
  let r := if existsb (String.eqb name) ["arbitrage"; "transition"; "arbitrage_exp"]
           then match dget [("transition", tr); ("arbitrage", ar)] name with
                | Some rs => html_rows fixed4 fixed3 tex name eqs (Some rs)
                | None => match eqs with [] => Ok [] | _ => Err ExcKey end
                end
           else html_rows fixed4 fixed3 tex name eqs None in
  (short_block tr ar (name, eqs) /\ r = Err ExcIndex) \/ (expectations (name, eqs) /\ r = Err ExcKey) \/
  (~ short_block tr ar (name, eqs) /\ ~ expectations (name, eqs) /\ exists l, r = Ok l).
Proof.
  intros fixed4 fixed3 tex tr ar name eqs r. unfold short_block, expectations. cbn [fst snd].
  destruct (string_dec name "transition") as [->|N1].
  { subst r. cbn [existsb dget]. simpl String.eqb. cbv iota. simpl orb. cbv iota.
    destruct (Nat.lt_ge_cases (length tr) (length eqs)) as [H|H].
    - left. split; [now left | now apply html_rows_short].
    - right; right. split; [intros [[_ K]|[K _]]; [lia | discriminate K]|]. split; [intros [K _]; discriminate K|].
      now apply html_rows_long. }
  destruct (string_dec name "arbitrage") as [->|N2].
  { subst r. cbn [existsb dget]. simpl String.eqb. cbv iota. simpl orb. cbv iota.
    destruct (Nat.lt_ge_cases (length ar) (length eqs)) as [H|H].
    - left. split; [now right | now apply html_rows_short].
    - right; right. split; [intros [[K _]|[_ K]]; [discriminate K | lia]|]. split; [intros [K _]; discriminate K|].
      now apply html_rows_long. }
  destruct (string_dec name "arbitrage_exp") as [->|N3].
  { subst r. cbn [existsb dget]. simpl String.eqb. cbv iota. simpl orb. cbv iota.
    destruct eqs as [|e eqs].
    - right; right. split; [intros [[K _]|[K _]]; discriminate K|]. split; [intros [_ K]; now apply K | now exists []].
    - right; left. split; [split; [reflexivity | discriminate] | reflexivity]. }
  right; right. split; [intros [[K _]|[K _]]; contradiction|]. split; [intros [K _]; contradiction|].
  subst r. cbn [existsb].
  rewrite (proj2 (String.eqb_neq _ _) N1), (proj2 (String.eqb_neq _ _) N2), (proj2 (String.eqb_neq _ _) N3). cbn [orb].
  apply html_rows_plain.
Qed.

Lemma html_blocks_cases : forall fixed4 fixed3 tex tr ar equations,
  let r := html_blocks fixed4 fixed3 tex equations [("transition", tr); ("arbitrage", ar)] in
  ((exists l, r = Ok l) <-> forall b, In b equations -> ~ short_block tr ar b /\ ~ expectations b) /\
  (r = Err ExcIndex <-> exists before b after, equations = (before ++ b :: after)%list /\ short_block tr ar b /\
     forall c, In c before -> ~ short_block tr ar c /\ ~ expectations c) /\
  (r = Err ExcKey <-> exists before b after, equations = (before ++ b :: after)%list /\ expectations b /\
     forall c, In c before -> ~ short_block tr ar c /\ ~ expectations c).
Proof.
  intros fixed4 fixed3 tex tr ar. induction equations as [|[name eqs] equations IH]; cbv zeta in *.
  - cbn [html_blocks]. split; [|split]; split; try discriminate.
    + intros _ b [].
    + intros _. now exists [].
    + intros ([|? ?] & b & after & E & _); discriminate E.
    + intros ([|? ?] & b & after & E & _); discriminate E.
  - cbn [html_blocks]. pose proof (html_block_cases fixed4 fixed3 tex tr ar name eqs) as C. cbv zeta in C.
    match type of C with context [?x = Err ExcIndex] => set (r := x) in * end. clearbody r.
    destruct C as [[C1 ->]|[[C1 ->]|(C1 & C2 & l & ->)]]; cbn [bind].
    + assert (NE : ~ expectations (name, eqs)).
      { intros [K _]. destruct C1 as [[K' _]|[K' _]]; cbn [fst] in *; congruence. }
      split; [|split]; split.
      * intros (l & K); discriminate K.
      * intros H. exfalso. now apply (proj1 (H (name, eqs) (or_introl eq_refl))).
      * intros _. exists [], (name, eqs), equations. split; [reflexivity|]. split; [exact C1 | intros c []].
      * reflexivity.
      * discriminate.
      * intros ([|c before] & b & after & E & X & Y); injection E as <- E'; [contradiction|].
        exfalso. exact (proj1 (Y _ (or_introl eq_refl)) C1).
    + assert (NE : ~ short_block tr ar (name, eqs)).
      { destruct C1 as [K _]. intros [[K' _]|[K' _]]; cbn [fst] in *; congruence. }
      split; [|split]; split.
      * intros (l & K); discriminate K.
      * intros H. exfalso. now apply (proj2 (H (name, eqs) (or_introl eq_refl))).
      * discriminate.
      * intros ([|c before] & b & after & E & X & Y); injection E as <- E'; [contradiction|].
        exfalso. exact (proj2 (Y _ (or_introl eq_refl)) C1).
      * intros _. exists [], (name, eqs), equations. split; [reflexivity|]. split; [exact C1 | intros c []].
      * reflexivity.
    + destruct IH as (I1 & I2 & I3).
      assert (S : forall (P : string * list string -> Prop), ~ P (name, eqs) ->
        ((exists before b after, equations = (before ++ b :: after)%list /\ P b /\
             forall c, In c before -> ~ short_block tr ar c /\ ~ expectations c) <->
         (exists before b after, (name, eqs) :: equations = (before ++ b :: after)%list /\ P b /\
             forall c, In c before -> ~ short_block tr ar c /\ ~ expectations c))).
      { intros P NP. split.
        - intros (before & b & after & -> & X & Y). exists ((name, eqs) :: before), b, after.
          split; [reflexivity|]. split; [exact X|]. intros c [<-|Hc]; [split; assumption | now apply Y].
        - intros ([|c before] & b & after & E & X & Y); injection E as <- E'; [contradiction|].
          exists before, b, after. split; [exact E'|]. split; [exact X|]. intros d Hd. apply Y. now right. }
      destruct (html_blocks fixed4 fixed3 tex equations [("transition", tr); ("arbitrage", ar)]) as [l'|e]; cbn [bind].
      * split; [|split].
        -- split; [|intros _; eexists; reflexivity]. intros _ b [<-|Hb]; [split; assumption|].
           apply (proj1 I1); [eexists; reflexivity | exact Hb].
        -- split; [discriminate|]. intros H. apply (S _ C1) in H. apply I2 in H. discriminate H.
        -- split; [discriminate|]. intros H. apply (S _ C2) in H. apply I3 in H. discriminate H.
      * split; [|split].
        -- split; [intros (m & K); discriminate K|]. intros H. exfalso.
           destruct (proj2 I1) as (m & K); [intros b Hb; apply H; now right | discriminate K].
        -- rewrite <- (S _ C1). exact I2.
        -- rewrite <- (S _ C2). exact I3.
Qed.

Lemma table_total : forall fixed4 fixed3 tex equations defs tr ar,
  (exists rows, model_html fixed4 fixed3 tex equations defs tr ar = Ok rows) <->
  (forall eqs, (In ("transition", eqs) equations -> (length eqs <= length tr)%nat) /\
               (In ("arbitrage", eqs) equations -> (length eqs <= length ar)%nat) /\
               (In ("arbitrage_exp", eqs) equations -> eqs = [])).
Proof.
  intros fixed4 fixed3 tex equations defs tr ar. unfold model_html.
  destruct (html_blocks_cases fixed4 fixed3 tex tr ar (dset equations "definitions" (definition_lines defs))) as (I & _).
  cbv zeta in I. rewrite I. split.
  - intros H eqs. split; [|split]; intros K.
    + apply (dset_in_other _ _ "definitions" (definition_lines defs)) in K; [|discriminate].
      destruct (H _ K) as [S _]. unfold short_block in S. cbn [fst snd] in S. apply Nat.nlt_ge. intros L. apply S. now left.
    + apply (dset_in_other _ _ "definitions" (definition_lines defs)) in K; [|discriminate].
      destruct (H _ K) as [S _]. unfold short_block in S. cbn [fst snd] in S. apply Nat.nlt_ge. intros L. apply S. now right.
    + apply (dset_in_other _ _ "definitions" (definition_lines defs)) in K; [|discriminate].
      destruct (H _ K) as [_ S]. unfold expectations in S. cbn [fst snd] in S. destruct eqs; [reflexivity|].
      exfalso. apply S. split; [reflexivity | discriminate].
  - intros H [g eqs] K. destruct (H eqs) as (A & B & C). split.
    + intros [[E L]|[E L]]; cbn [fst snd] in *; subst g; apply (dset_in_other _ _ "definitions") in K; try discriminate.
      * specialize (A K). lia.
      * specialize (B K). lia.
    + intros [E L]; cbn [fst snd] in *; subst g; apply (dset_in_other _ _ "definitions") in K; try discriminate.
      now apply L, C.
Qed.

Lemma table_errors : forall fixed4 fixed3 tex equations defs tr ar e,
  model_html fixed4 fixed3 tex equations defs tr ar = Err e ->
  (e = ExcIndex /\ exists eqs, (In ("transition", eqs) equations /\ (length tr < length eqs)%nat) \/
                               (In ("arbitrage", eqs) equations /\ (length ar < length eqs)%nat)) \/
  (e = ExcKey /\ exists eqs, In ("arbitrage_exp", eqs) equations /\ eqs <> []).
Proof.
  intros fixed4 fixed3 tex equations defs tr ar e H. unfold model_html in H.
  pose proof (html_blocks_cases fixed4 fixed3 tex tr ar (dset equations "definitions" (definition_lines defs))) as (I & J & K).
  cbv zeta in *. rewrite H in I, J, K.
  assert (D : e = ExcIndex \/ e = ExcKey).
  { clear I J K. revert H. generalize (dset equations "definitions" (definition_lines defs)).
    induction d as [|[name eqs] d IH]; cbn [html_blocks]; [discriminate|].
    pose proof (html_block_cases fixed4 fixed3 tex tr ar name eqs) as C. cbv zeta in C.
    match type of C with context [?x = Err ExcIndex] => set (r := x) in * end. clearbody r.
    destruct C as [[_ ->]|[[_ ->]|(_ & _ & l & ->)]]; cbn [bind].
    - intros F; injection F as <-; now left.
    - intros F; injection F as <-; now right.
    - destruct (html_blocks fixed4 fixed3 tex d [("transition", tr); ("arbitrage", ar)]) as [l'|e'] eqn:E; cbn [bind]; [discriminate|].
      intros F. injection F as <-. now apply IH. }
  destruct D as [->| ->].
  - left. split; [reflexivity|]. destruct (proj1 J eq_refl) as (before & [g eqs] & after & E & S & _).
    assert (M : In (g, eqs) (dset equations "definitions" (definition_lines defs))) by (rewrite E; apply in_or_app; right; now left).
    exists eqs. destruct S as [[F L]|[F L]]; cbn [fst snd] in *; subst g; apply dset_in_other in M; try discriminate; [left | right]; now split.
  - right. split; [reflexivity|]. destruct (proj1 K eq_refl) as (before & [g eqs] & after & E & [F L] & _).
    assert (M : In (g, eqs) (dset equations "definitions" (definition_lines defs))) by (rewrite E; apply in_or_app; right; now left).
    cbn [fst snd] in *; subst g; apply dset_in_other in M; try discriminate. now exists eqs.
Qed.
