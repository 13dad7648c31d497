(** Proofs on groot. *)
From Coq Require Import String List Arith Bool Lia.
From Verif.Base Require Import Prelude.
From Verif.Model Require Import Groot.
From Verif.Spec Require Import Groot.
Import ListNotations.
Open Scope list_scope.

Lemma dir_eqb_spec : forall a b, reflect (a = b) (dir_eqb a b).
Proof.
  induction a as [|x a IH]; intros [|y b]; cbn; try (constructor; congruence).
  destruct (String.eqb_spec x y) as [->|N]; cbn [andb]; [|constructor; congruence].
  destruct (IH b) as [->|N]; constructor; congruence.
Qed.

Lemma check_spec : forall l, check_filelist l = true <-> In "README.md"%string l \/ In "README"%string l.
Proof.
  intros l. unfold check_filelist. rewrite orb_true_iff, !existsb_exists. split.
  - intros [(x & Hx & E)|(x & Hx & E)]; apply String.eqb_eq in E; subst; [left|right]; exact Hx.
  - intros [H|H]; [left; exists "README.md"%string|right; exists "README"%string]; (split; [exact H|apply String.eqb_refl]).
Qed.

Lemma above_refl : forall d, above d d.
Proof. intros d. exists []. reflexivity. Qed.
Lemma above_tl : forall x d s, above (x :: d) s -> above d s.
Proof. intros x d s (i & ->). exists (i ++ [x]). rewrite <- app_assoc. reflexivity. Qed.
Lemma above_trans : forall a b c, above a b -> above b c -> above a c.
Proof. intros a b c (i & ->) (j & ->). exists (j ++ i). rewrite app_assoc. reflexivity. Qed.

(** Directories above [c] other than [c] are above its parent. *)
Lemma above_cons : forall x d e, above e (x :: d) -> e <> x :: d -> above e d.
Proof. intros x d e ([|y i] & E) N; [cbn in E; congruence|]. injection E as -> ->. exists i. reflexivity. Qed.
Lemma above_cons_inv : forall x d e, above (x :: d) e -> above d e.
Proof. exact above_tl. Qed.

Section G.
  Variable listdir : dir -> res (list string).
  Variable enter : dir -> string -> res dir.

  Inductive climb : dir -> dir -> Prop :=
  | climb_here : forall d, climb d d
  | climb_up : forall x d r, ~ has_readme listdir (x :: d) -> climb d r -> climb (x :: d) r.

  Lemma no_readme : forall d l, listdir d = Ok l -> check_filelist l = false -> ~ has_readme listdir d.
  Proof.
    intros d l E C (l' & E' & H). rewrite E in E'. injection E' as <-. apply check_spec in H. congruence.
  Qed.

  (** The loop from a directory whose descendants towards [start] hold no readme. *)
  Lemma loop_spec : forall c fuel path, (length c + 2 <= fuel)%nat ->
      match groot_loop listdir enter fuel path (GState c c c false false) with
      | (Ok s, d) => (sysroot s = false /\ exists r, climb c r /\ has_readme listdir r /\ enter r path = Ok d) \/
                     (sysroot s = true /\ forall e, above e c -> ~ has_readme listdir e)
      | (Err e, d) => exists r, climb c r /\ d = r /\ (listdir r = Err e \/ has_readme listdir r /\ enter r path = Err e)
      end.
  Proof.
    induction c as [|x c IH]; intros fuel path HF.
    - destruct fuel as [|[|fuel]]; try (cbn in HF; lia). cbn [groot_loop found sysroot orb]. unfold groot_pass. cbn [here cwd cwd0].
      destruct (listdir []) as [l|e] eqn:EL; [|exists []; split; [constructor|split; [reflexivity|left; exact EL]]].
      destruct (check_filelist l) eqn:C.
      + assert (HR : has_readme listdir []) by (exists l; split; [exact EL|apply check_spec; exact C]).
        destruct (enter [] path) as [d|e] eqn:EN; cbn [found sysroot orb here].
        * left. split; [reflexivity|]. exists []. split; [constructor|]. split; assumption.
        * exists []. split; [constructor|]. split; [reflexivity|right; split; assumption].
      + cbn [parent tl dir_eqb found sysroot orb here]. right. split; [reflexivity|]. intros e (i & E).
        symmetry in E. apply app_eq_nil in E. destruct E as (_ & ->). exact (no_readme [] l EL C).
    - destruct fuel as [|fuel]; [cbn in HF; lia|]. cbn [groot_loop found sysroot orb]. unfold groot_pass. cbn [here cwd cwd0].
      destruct (listdir (x :: c)) as [l|e] eqn:EL; [|exists (x :: c); split; [constructor|split; [reflexivity|left; exact EL]]].
      destruct (check_filelist l) eqn:C.
      + assert (HR : has_readme listdir (x :: c)) by (exists l; split; [exact EL|apply check_spec; exact C]).
        destruct (enter (x :: c) path) as [d|e] eqn:EN.
        * destruct fuel as [|fuel]; cbn [groot_loop found sysroot orb here]; (left; split; [reflexivity|]; exists (x :: c); split; [constructor|split; assumption]).
        * exists (x :: c). split; [constructor|]. split; [reflexivity|right; split; assumption].
      + pose proof (no_readme _ l EL C) as NR. cbn [parent tl sysroot]. destruct (dir_eqb_spec c (x :: c)) as [E|_]; [exfalso; apply (f_equal (@length string)) in E; cbn in E; lia|].
        specialize (IH fuel path ltac:(cbn in HF; lia)). destruct (groot_loop listdir enter fuel path (GState c c c false false)) as [[s|e] d].
        * destruct IH as [(S0 & r & Hr & H1 & H2)|(S0 & H)].
          -- left. split; [exact S0|]. exists r. split; [constructor; assumption|split; assumption].
          -- right. split; [exact S0|]. intros e He. destruct (dir_eqb_spec e (x :: c)) as [->|N]; [exact NR|]. apply H. exact (above_cons x c e He N).
        * destruct IH as (r & Hr & H). exists r. split; [constructor; assumption|exact H].
  Qed.

  Lemma climb_above : forall c r, climb c r -> above r c /\ forall e, above e c -> above r e -> e <> r -> ~ has_readme listdir e.
  Proof.
    intros c r H. induction H as [d|x d r HN HC (IA & IB)].
    - split; [apply above_refl|]. intros e (i & E) (j & ->) N. exfalso. apply N. destruct j as [|y j]; [reflexivity|].
      apply (f_equal (@length string)) in E. rewrite !app_length in E. cbn in E. lia.
    - split; [destruct IA as (i & ->); exists (x :: i); reflexivity|]. intros e He Hr N.
      destruct (dir_eqb_spec e (x :: d)) as [->|N']; [exact HN|]. exact (IB e (above_cons x d e He N') Hr N).
  Qed.

  Lemma groot_cases : forall path start,
      match groot listdir enter path start with
      | (Ok _, d) => exists r, project_root listdir start r /\ enter r path = Ok d
      | (Err e, d) =>
          (e = ExcGeneric "Root directory not found." /\ d = start /\ forall a, above a start -> ~ has_readme listdir a) \/
          (listdir d = Err e /\ above d start /\ forall a, above a start -> above d a -> a <> d -> ~ has_readme listdir a) \/ (project_root listdir start d /\ enter d path = Err e)
      end.
  Proof.
    intros path start. unfold groot. pose proof (loop_spec start (length start + 2) path (le_n _)) as L.
    destruct (groot_loop listdir enter (length start + 2) path (GState start start start false false)) as [[s|e] d].
    - destruct L as [(-> & r & Hr & H1 & H2)|(-> & H)].
      + exists r. destruct (climb_above start r Hr) as (A & B). split; [|exact H2]. split; [exact A|split; assumption].
      + left. split; [reflexivity|]. split; [reflexivity|exact H].
    - destruct L as (r & Hr & -> & [H|(H1 & H2)]); destruct (climb_above start r Hr) as (A & B).
      + right. left. split; [exact H|split; assumption].
      + right. right. split; [|exact H2]. split; [exact A|split; assumption].
  Qed.

  Lemma groot_found : forall path start r d, project_root listdir start r -> enter r path = Ok d ->
      (forall a, above a start -> above r a -> exists l, listdir a = Ok l) -> groot listdir enter path start = (Ok tt, d).
  Proof.
    intros path start r d HP HE HL. pose proof (groot_cases path start) as G.
    assert (UNI : forall r', project_root listdir start r' -> r' = r).
    { intros r' (A' & R' & U'). destruct HP as (A & R0 & U).
      destruct (dir_eqb_spec r' r) as [|N]; [assumption|exfalso].
      (* both are above start: one is above the other *)
      destruct A as (i & Ei). destruct A' as (j & Ej).
      assert (CMP : above r r' \/ above r' r).
      { rewrite Ei in Ej. clear -Ej. revert j Ej. induction i as [|x i IH]; intros j Ej.
        - right. exists j. exact Ej.
        - destruct j as [|y j]; [left; exists (x :: i); symmetry; exact Ej|]. injection Ej as _ Ej. exact (IH j Ej). }
      destruct CMP as [C|C].
      - exact (U r' (ex_intro _ j Ej) C N R').
      - exact (U' r (ex_intro _ i Ei) C (not_eq_sym N) R0). }
    destruct (groot listdir enter path start) as [[[]|e] d'].
    - destruct G as (r' & P' & E'). rewrite (UNI r' P') in E'. congruence.
    - exfalso. destruct G as [(_ & _ & G)|[(G & A & NR)|(G & E)]].
      + exact (G r (proj1 HP) (proj1 (proj2 HP))).
      + destruct HP as ((i & Ei) & R0 & U). destruct A as (j & Ej).
        assert (CMP : above r d' \/ above d' r).
        { rewrite Ei in Ej. clear -Ej. revert j Ej. induction i as [|x i IH]; intros j Ej.
          - right. exists j. exact Ej.
          - destruct j as [|y j]; [left; exists (x :: i); symmetry; exact Ej|]. injection Ej as _ Ej. exact (IH j Ej). }
        destruct CMP as [C|C]; [destruct (HL d' (ex_intro _ j Ej) C); congruence|].
        destruct (dir_eqb_spec d' r) as [->|N]; [destruct (HL r (ex_intro _ i Ei) (above_refl r)); congruence|].
        exact (NR r (ex_intro _ i Ei) C (not_eq_sym N) R0).
      + rewrite (UNI d' G) in E. congruence.
  Qed.

  Lemma groot_not_found : forall path start, readable listdir start -> (forall a, above a start -> ~ has_readme listdir a) ->
      groot listdir enter path start = (Err (ExcGeneric "Root directory not found."), start).
  Proof.
    intros path start HL HN. pose proof (groot_cases path start) as G. destruct (groot listdir enter path start) as [[[]|e] d].
    - destruct G as (r & (A & R0 & _) & _). destruct (HN r A R0).
    - destruct G as [(-> & -> & _)|[(G & A & _)|((A & R0 & _) & _)]]; [reflexivity| |destruct (HN d A R0)].
      destruct (HL d A). congruence.
  Qed.
End G.
