(** Properties of multimethods (dolo/misc/multimethod.py): C57. *)
From Coq Require Import String List Arith Bool Lia.
From Verif.Base Require Import Prelude.
From Verif.Model Require Import Multimethod.
From Verif.Spec Require Import Multimethod.
From Verif.Proofs Require Import MultimethodProofs.
Import ListNotations.

(** C57. For all class hierarchies and all histories of registrations, deletions and calls: a call is dispatched to a
    function registered for a signature which accepts the types of its arguments. *)
Theorem C57_applicable : forall cls cls_eqb sub mro object, hierarchy cls cls_eqb sub ->
    forall evs types f, answer cls cls_eqb sub mro object evs types = Ok f ->
      exists s, registered cls cls_eqb evs s f /\ accepts cls sub s types.
Proof. intros cls cls_eqb sub mro object (E & R & _) evs types f. exact (answer_applicable cls cls_eqb sub mro object E evs types f R). Qed.
Print Assumptions C57_applicable.

(** Exact signatures are used. *)
Theorem C57_exact : forall cls cls_eqb sub mro object, hierarchy cls cls_eqb sub ->
    forall evs types f, registered cls cls_eqb evs types f -> answer cls cls_eqb sub mro object evs types = Ok f.
Proof. intros cls cls_eqb sub mro object (E & _). exact (answer_exact cls cls_eqb sub mro object E). Qed.
Print Assumptions C57_exact.

(** A call without accepting signature raises DispatchError. *)
Theorem C57_missing : forall cls cls_eqb sub mro object, hierarchy cls cls_eqb sub ->
    forall evs types, (forall s f, registered cls cls_eqb evs s f -> ~ accepts cls sub s types) ->
      answer cls cls_eqb sub mro object evs types = Err dispatch_error.
Proof. intros cls cls_eqb sub mro object (E & R & _) evs types. exact (answer_none cls cls_eqb sub mro object E evs types R). Qed.
Print Assumptions C57_missing.

(** The cache is invisible: the answer is the one which would be given had no call been made before. *)
Theorem C57_cache_invisible : forall cls cls_eqb sub mro object, hierarchy cls cls_eqb sub ->
    forall evs types, answer cls cls_eqb sub mro object evs types =
      answer cls cls_eqb sub mro object (filter (fun ev => match ev with Call _ _ => false | _ => true end) evs) types.
Proof. intros cls cls_eqb sub mro object (E & _). exact (cache_invisible cls cls_eqb sub mro object E). Qed.
Print Assumptions C57_cache_invisible.

(** With ordinary classes (no virtual subclasses) and signatures of the same length, the most specific method is
    chosen when there is one, for all histories. *)
Theorem C57_most_specific : forall cls cls_eqb sub mro object, hierarchy cls cls_eqb sub -> ordinary cls cls_eqb sub mro ->
    forall evs types M f n, (forall s g, registered cls cls_eqb evs s g -> length s = n) ->
      most_specific cls cls_eqb sub evs types M f -> answer cls cls_eqb sub mro object evs types = Ok f.
Proof.
  intros cls cls_eqb sub mro object (E & R & T & A) O evs types M f n H.
  exact (dispatch_ordinary cls cls_eqb sub mro object E R T A evs types M f n O H).
Qed.
Print Assumptions C57_most_specific.

(** With any classes and lengths, it is chosen when methods are registered from the general to the specific. *)
Theorem C57_general_first : forall cls cls_eqb sub mro object, hierarchy cls cls_eqb sub ->
    forall evs types M f, general_first cls sub evs [] ->
      most_specific cls cls_eqb sub evs types M f -> answer cls cls_eqb sub mro object evs types = Ok f.
Proof.
  intros cls cls_eqb sub mro object (E & R & T & A) evs types M f.
  exact (dispatch_general_first cls cls_eqb sub mro object E R T A evs types M f).
Qed.
Print Assumptions C57_general_first.

(** A hierarchy: object, A and B, and their subclasses A1 and B1. *)
Inductive toy : Type := Obj | A | B | A1 | B1.
Definition toy_eqb (a b : toy) : bool := match a, b with Obj, Obj | A, A | B, B | A1, A1 | B1, B1 => true | _, _ => false end.
Definition toy_mro (t : toy) : list toy := match t with Obj => [Obj] | A => [A; Obj] | B => [B; Obj] | A1 => [A1; A; Obj] | B1 => [B1; B; Obj] end.
Definition toy_sub (a b : toy) : bool := existsb (toy_eqb b) (toy_mro a).
Lemma toy_hierarchy : hierarchy toy toy_eqb toy_sub.
Proof.
  repeat split.
  - destruct a, b; intros H; try discriminate; reflexivity.
  - intros ->. destruct b; reflexivity.
  - destruct a; reflexivity.
  - destruct a, b, c; intros; try discriminate; reflexivity.
  - destruct a, b; intros; try discriminate; reflexivity.
Qed.
Lemma toy_ordinary : ordinary toy toy_eqb toy_sub toy_mro.
Proof.
  split.
  - intros t a H. destruct t, a; try discriminate; cbn; tauto.
  - intros t a b H1 H2 H3 N. destruct t, a, b; try discriminate; cbn in *; try congruence; try lia; exfalso;
      repeat match goal with K : _ \/ _ |- _ => destruct K as [K|K]; try discriminate | K : False |- _ => destruct K end.
Qed.

(** Methods for (object, object), (object, B), (A, B) then (A, object): (A, B) is chosen on (A1, B1). *)
Example C57_most_specific_nontrivial :
    let evs := [Register toy [Obj; Obj] 1; Register toy [Obj; B] 2; Register toy [A; B] 3; Register toy [A; Obj] 4]%nat in
    most_specific toy toy_eqb toy_sub evs [A1; B1] [A; B] 3 /\ answer toy toy_eqb toy_sub toy_mro Obj evs [A1; B1] = Ok 3%nat /\
    (forall s g, registered toy toy_eqb evs s g -> length s = 2%nat).
Proof.
  assert (ONLY : forall s g, registered toy toy_eqb [Register toy [Obj; Obj] 1; Register toy [Obj; B] 2; Register toy [A; B] 3; Register toy [A; Obj] 4]%nat s g ->
             s = [Obj; Obj] \/ s = [Obj; B] \/ s = [A; B] \/ s = [A; Obj]).
  { intros s g H. unfold registered in H. destruct s as [|s1 [|s2 [|s3 s4]]]; try destruct s1; try destruct s2; cbn in H; try discriminate; tauto. }
  cbv zeta. split; [|split; [reflexivity|]].
  - split; [reflexivity|]. split.
    + split; [cbn; lia|]. intros i a b Ha Hb; destruct i as [|[|i]]; cbn in Ha, Hb; try discriminate; [injection Ha as <-; injection Hb as <-; reflexivity|injection Ha as <-; injection Hb as <-; reflexivity|destruct i; discriminate].
    + intros s g H _. destruct (ONLY s g H) as [->|[->|[->| ->]]]; (split; [cbn; lia|]);
        intros i a b Ha Hb; destruct i as [|[|i]]; cbn in Ha, Hb; try discriminate; try (injection Ha as <-; injection Hb as <-; reflexivity); destruct i; discriminate.
  - intros s g H. destruct (ONLY s g H) as [->|[->|[->| ->]]]; reflexivity.
Qed.
Example C57_general_first_nontrivial :
    general_first toy toy_sub [Register toy [] 1; Register toy [A] 4; Call toy [A1; B]; Register toy [Obj; B] 2; Register toy [A; B] 3]%nat [].
Proof.
  cbn. repeat split; intros s' H; repeat (destruct H as [<-|H]; [intros (L & K); try (cbn in L; lia); try reflexivity; try (specialize (K 0%nat _ _ eq_refl eq_refl); discriminate)|]); destruct H.
Qed.

(** The claim is false in general: with the same methods as above but unannotated trailing arguments, so that
    signatures have different lengths, the less specific (A) is chosen on (A1, B1) although (A, B) is registered. *)
Theorem C57_most_specific_refuted :
    let evs := [Register toy [] 1; Register toy [Obj; B] 2; Register toy [A; B] 3; Register toy [A] 4]%nat in
    most_specific toy toy_eqb toy_sub evs [A1; B1] [A; B] 3 /\ answer toy toy_eqb toy_sub toy_mro Obj evs [A1; B1] = Ok 4%nat.
Proof.
  cbv zeta. split; [|reflexivity]. split; [reflexivity|]. split.
  - split; [cbn; lia|]. intros i a b Ha Hb; destruct i as [|[|i]]; cbn in Ha, Hb; try discriminate; [injection Ha as <-; injection Hb as <-; reflexivity|injection Ha as <-; injection Hb as <-; reflexivity|destruct i; discriminate].
  - intros s g H _. assert (ONLY : s = [] \/ s = [Obj; B] \/ s = [A; B] \/ s = [A]).
    { unfold registered in H. destruct s as [|s1 [|s2 [|s3 s4]]]; try destruct s1; try destruct s2; cbn in H; try discriminate; tauto. }
    destruct ONLY as [->|[->|[->| ->]]]; (split; [cbn; lia|]);
      intros i a b Ha Hb; destruct i as [|[|i]]; cbn in Ha, Hb; try discriminate; try (injection Ha as <-; injection Hb as <-; reflexivity); destruct i; discriminate.
Qed.
Print Assumptions C57_most_specific_refuted.

(** Ambiguous calls are not refused: with methods for (A, object) and (object, B), neither more specific than the
    other, (A, B) is dispatched to the one closer on the first argument. *)
Theorem C57_ambiguous_refuted :
    let evs := [Register toy [A; Obj] 1; Register toy [Obj; B] 2]%nat in
    accepts toy toy_sub [A; Obj] [A; B] /\ accepts toy toy_sub [Obj; B] [A; B] /\
    ~ accepts toy toy_sub [A; Obj] [Obj; B] /\ ~ accepts toy toy_sub [Obj; B] [A; Obj] /\
    answer toy toy_eqb toy_sub toy_mro Obj evs [A; B] = Ok 1%nat.
Proof.
  cbv zeta. repeat split; try (cbn; lia); try reflexivity.
  - intros i a b Ha Hb; destruct i as [|[|i]]; cbn in Ha, Hb; try discriminate; try (injection Ha as <-; injection Hb as <-; reflexivity); destruct i; discriminate.
  - intros i a b Ha Hb; destruct i as [|[|i]]; cbn in Ha, Hb; try discriminate; try (injection Ha as <-; injection Hb as <-; reflexivity); destruct i; discriminate.
  - intros (_ & K). specialize (K 0%nat A Obj eq_refl eq_refl). discriminate.
  - intros (_ & K). specialize (K 1%nat B Obj eq_refl eq_refl). discriminate.
Qed.
Print Assumptions C57_ambiguous_refuted.
