(** The few string operations used by the compiler modules. *)
From Coq Require Import String Ascii List Bool.
Import ListNotations.
Open Scope string_scope.

(** [s.split(c)] for a one-character separator. *)
Fixpoint split_char (c : ascii) (s : string) : list string :=
  match s with
  | "" => [""]
  | String a r =>
      if Ascii.eqb a c then "" :: split_char c r
      else match split_char c r with
           | [] => [String a ""]
           | p :: ps => String a p :: ps
           end
  end.

(** [s.split("<=")] *)
Fixpoint split_le (s : string) : list string :=
  match s with
  | "" => [""]
  | String a r =>
      match r with
      | String b r' =>
          if Ascii.eqb a "<" && Ascii.eqb b "=" then "" :: split_le r'
          else match split_le r with
               | [] => [String a ""]
               | p :: ps => String a p :: ps
               end
      | "" => [String a ""]
      end
  end.

(** ASCII white space, as [str.strip] sees it. *)
Definition is_space (a : ascii) : bool :=
  match nat_of_ascii a with
  | 32 | 9 | 10 | 11 | 12 | 13 | 28 | 29 | 30 | 31 => true
  | _ => false
  end.

Fixpoint lstrip (s : string) : string :=
  match s with
  | String a r => if is_space a then lstrip r else s
  | "" => ""
  end.

Fixpoint rstrip (s : string) : string :=
  match s with
  | "" => ""
  | String a r =>
      match rstrip r with
      | "" => if is_space a then "" else String a ""
      | t => String a t
      end
  end.

(** [s.strip()] *)
Definition strip (s : string) : string := rstrip (lstrip s).

(** The text before the first newline. *)
Fixpoint first_line (s : string) : string :=
  match s with
  | "" => ""
  | String a r => if Ascii.eqb a "010" then "" else String a (first_line r)
  end.

(** [sep.join(l)] *)
Fixpoint join (sep : string) (l : list string) : string :=
  match l with
  | [] => ""
  | [s] => s
  | s :: r => s ++ sep ++ join sep r
  end.

(** [c in s] for a character. *)
Fixpoint has_char (c : ascii) (s : string) : bool :=
  match s with
  | "" => false
  | String a r => Ascii.eqb a c || has_char c r
  end.

Fixpoint all_space (s : string) : bool :=
  match s with
  | "" => true
  | String a r => is_space a && all_space r
  end.

(** [t] begins and ends with characters that are not white space. *)
Definition no_outer_space (t : string) : Prop :=
  (forall a r, t = String a r -> is_space a = false) /\
  (forall r a, t = r ++ String a "" -> is_space a = false).

Lemma append_nil_r : forall s, s ++ "" = s.
Proof. intros s; induction s as [|a s IH]; simpl; [reflexivity|rewrite IH; reflexivity]. Qed.

Lemma append_assoc : forall a b c, (a ++ b) ++ c = a ++ (b ++ c).
Proof. intros a; induction a as [|x a IH]; intros b c; simpl; [reflexivity|rewrite IH; reflexivity]. Qed.

Lemma split_char_not_nil : forall c s, split_char c s <> [].
Proof.
  intros c s; destruct s as [|a s]; simpl; [discriminate|].
  destruct (Ascii.eqb a c); [discriminate|]. destruct (split_char c s); discriminate.
Qed.

Lemma split_char_join : forall c s, join (String c "") (split_char c s) = s.
Proof.
  intros c s; induction s as [|a s IH]; [reflexivity|].
  simpl. destruct (Ascii.eqb a c) eqn:E.
  - apply Ascii.eqb_eq in E. subst a.
    destruct (split_char c s) as [|p ps] eqn:Es.
    + exfalso. exact (split_char_not_nil c s Es).
    + change (join (String c "") ("" :: p :: ps)) with ("" ++ String c "" ++ join (String c "") (p :: ps)).
      rewrite IH. reflexivity.
  - destruct (split_char c s) as [|p ps] eqn:Es.
    + exfalso. exact (split_char_not_nil c s Es).
    + destruct ps as [|q qs].
      * simpl in *. rewrite IH. reflexivity.
      * change (join (String c "") (String a p :: q :: qs))
          with (String a (p ++ String c "" ++ join (String c "") (q :: qs))).
        change (join (String c "") (p :: q :: qs))
          with (p ++ String c "" ++ join (String c "") (q :: qs)) in IH.
        rewrite IH. reflexivity.
Qed.

Lemma split_char_pieces : forall c s p, In p (split_char c s) -> has_char c p = false.
Proof.
  intros c s; induction s as [|a s IH]; intros p H; simpl in H.
  - destruct H as [<-|[]]. reflexivity.
  - destruct (Ascii.eqb a c) eqn:E.
    + destruct H as [<-|H]; [reflexivity|apply IH, H].
    + destruct (split_char c s) as [|q qs] eqn:Es.
      * destruct H as [<-|[]]. simpl. rewrite E. reflexivity.
      * destruct H as [<-|H].
        -- simpl. rewrite E. apply IH. left; reflexivity.
        -- apply IH. right; exact H.
Qed.

(** The splitting is the only way to cut the string at its separators. *)
Lemma split_char_unique : forall c l, l <> [] -> (forall p, In p l -> has_char c p = false) ->
  split_char c (join (String c "") l) = l.
Proof.
  assert (P : forall c p, has_char c p = false -> split_char c p = [p]).
  { intros c p; induction p as [|a p IH]; intros H; [reflexivity|].
    simpl in H. apply orb_false_iff in H. destruct H as [H1 H2].
    simpl. rewrite H1, (IH H2). reflexivity. }
  assert (Q : forall c p r, has_char c p = false ->
            split_char c (p ++ String c r) = p :: split_char c r).
  { intros c p; induction p as [|a p IH]; intros r H.
    - simpl. rewrite Ascii.eqb_refl. reflexivity.
    - simpl in H. apply orb_false_iff in H. destruct H as [H1 H2].
      simpl. rewrite H1, (IH r H2). reflexivity. }
  intros c l; induction l as [|p l IH]; intros Hn H; [contradiction|].
  destruct l as [|q l].
  - simpl. apply P. apply H. left; reflexivity.
  - change (join (String c "") (p :: q :: l))
      with (p ++ String c (join (String c "") (q :: l))).
    rewrite Q by (apply H; left; reflexivity).
    rewrite IH; [reflexivity|discriminate|]. intros r Hr. apply H. right; exact Hr.
Qed.

Lemma lstrip_decomp : forall s, exists a, s = a ++ lstrip s /\ all_space a = true /\
  (forall x r, lstrip s = String x r -> is_space x = false).
Proof.
  intros s; induction s as [|x s IH]; simpl.
  - exists "". repeat split. discriminate.
  - destruct (is_space x) eqn:E.
    + destruct IH as (a & Ha & Hs & Hx). exists (String x a). simpl. rewrite <- Ha, E.
      repeat split; assumption.
    + exists "". repeat split. intros y r H. inversion H; subst. exact E.
Qed.

Lemma rstrip_decomp : forall s, exists b, s = rstrip s ++ b /\ all_space b = true /\
  (forall r x, rstrip s = r ++ String x "" -> is_space x = false).
Proof.
  intros s; induction s as [|x s IH]; simpl.
  - exists "". repeat split. intros r x H. destruct r; discriminate.
  - destruct IH as (b & Hb & Hs & Hx).
    destruct (rstrip s) as [|y t] eqn:Et.
    + simpl in Hb. subst b. destruct (is_space x) eqn:E.
      * exists (String x s). simpl. rewrite E. repeat split; [exact Hs|].
        intros r z H. destruct r; discriminate.
      * exists s. repeat split; [exact Hs|].
        intros r z H. destruct r as [|r0 [|r1 r]]; simpl in H; inversion H; subst.
        exact E.
    + exists b. simpl. rewrite <- Et. rewrite Hb at 1. rewrite Et. repeat split; [exact Hs|].
      intros r z H. destruct r as [|r0 r].
      * simpl in H. inversion H.
      * simpl in H. inversion H. apply (Hx r z). assumption.
Qed.

Lemma rstrip_first : forall s a r, rstrip s = String a r -> exists r', s = String a r'.
Proof.
  intros s a r H. destruct s as [|x s]; simpl in H; [discriminate|].
  destruct (rstrip s); [destruct (is_space x)|]; inversion H; subst; eauto.
Qed.

(** [strip] removes white space on both sides and nothing else. *)
Lemma strip_spec : forall s, exists a b, s = a ++ strip s ++ b /\
  all_space a = true /\ all_space b = true /\ no_outer_space (strip s).
Proof.
  intros s. unfold strip.
  destruct (lstrip_decomp s) as (a & Ha & Hsa & Hxa).
  destruct (rstrip_decomp (lstrip s)) as (b & Hb & Hsb & Hxb).
  exists a, b. rewrite <- Hb, <- Ha. repeat split; [exact Hsa|exact Hsb| |exact Hxb].
  intros x r H. destruct (rstrip_first _ _ _ H) as [r' H']. apply (Hxa x r' H').
Qed.

(** [s.split("<=")] when the pieces are known. *)
Fixpoint has_le (s : string) : bool :=
  match s with
  | String a r =>
      (Ascii.eqb a "<" && match r with String b _ => Ascii.eqb b "=" | "" => false end)
      || has_le r
  | "" => false
  end.

Lemma split_le_single : forall s, has_le s = false -> split_le s = [s].
Proof.
  intros s; induction s as [|a s IH]; intros H; [reflexivity|].
  cbn [has_le] in H. apply orb_false_iff in H. destruct H as [H1 H2].
  cbn [split_le]. destruct s as [|b s]; [reflexivity|].
  rewrite H1, (IH H2). reflexivity.
Qed.

Lemma split_le_cons : forall p r, has_le p = false ->
  split_le (p ++ String "<" (String "=" r)) = p :: split_le r.
Proof.
  intros p; induction p as [|a p IH]; intros r H; [reflexivity|].
  cbn [has_le] in H. apply orb_false_iff in H. destruct H as [H1 H2].
  change (String a p ++ String "<" (String "=" r))
    with (String a (p ++ String "<" (String "=" r))).
  cbn [split_le].
  destruct (p ++ String "<" (String "=" r)) as [|b t] eqn:Et.
  - destruct p; discriminate.
  - replace (Ascii.eqb a "<" && Ascii.eqb b "=") with false.
    + rewrite <- Et, (IH r H2). reflexivity.
    + destruct p as [|c p].
      * simpl in Et. inversion Et; subst. symmetry.
        destruct (Ascii.eqb a "<"); reflexivity.
      * simpl in Et. inversion Et; subst. symmetry. exact H1.
Qed.
