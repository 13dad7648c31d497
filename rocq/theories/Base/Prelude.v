(** Error values, bounded loops and array updates shared by the whole model. *)
From Coq Require Import List Arith Lia String.
Import ListNotations.

Global Arguments Nat.div : simpl never.
Global Arguments Nat.modulo : simpl never.

(** Python exceptions that the modelled code raises, as values. *)
Inductive exn : Type :=
| ExcGeneric (msg : string)   (* raise Exception(...) *)
| ExcAssert                   (* a failed assert *)
| ExcType                     (* TypeError *)
| ExcKey                      (* KeyError *)
| ExcIndex                    (* IndexError *)
| ExcName                     (* NameError / UnboundLocalError *)
| ExcValue                    (* ValueError *)
| ExcZeroDiv                  (* ZeroDivisionError *)
| ExcAttribute                (* AttributeError *)
| ExcLinAlg                   (* numpy.linalg.LinAlgError *)
| ExcRuntime                  (* RuntimeError *)
| ResultNaN.                  (* not an exception: numpy would return nan/inf here *)

Inductive res (A : Type) : Type :=
| Ok (a : A)
| Err (e : exn).
Arguments Ok {A} a.
Arguments Err {A} e.

Definition bind {A B} (x : res A) (f : A -> res B) : res B :=
  match x with Ok a => f a | Err e => Err e end.

Definition is_err {A} (x : res A) : Prop := exists e, x = Err e.

(** [for_range n body s]: Python's [for i in range(n): s = body i s]. *)
Fixpoint for_range {A} (n : nat) (body : nat -> A -> A) (s : A) : A :=
  match n with
  | O => s
  | S k => body k (for_range k body s)
  end.

(** The loop rule: an invariant indexed by the number of iterations done. *)
Lemma for_range_inv :
  forall {A} (P : nat -> A -> Prop) (n : nat) (body : nat -> A -> A) (s : A),
    P 0 s ->
    (forall k x, k < n -> P k x -> P (S k) (body k x)) ->
    P n (for_range n body s).
Proof.
  intros A P n; induction n as [|n IH]; intros body s H0 Hstep; simpl.
  - exact H0.
  - apply Hstep; [lia|]. apply IH; [exact H0|].
    intros k x Hk; apply Hstep; lia.
Qed.

Lemma for_range_ext :
  forall {A} (n : nat) (b1 b2 : nat -> A -> A) (s : A),
    (forall k x, k < n -> b1 k x = b2 k x) ->
    for_range n b1 s = for_range n b2 s.
Proof.
  intros A n; induction n as [|n IH]; intros b1 b2 s H; simpl; [reflexivity|].
  rewrite (IH b1 b2 s); [apply H; lia|]. intros; apply H; lia.
Qed.

(** A loop whose body may raise: the first exception stops it. *)
Fixpoint for_range_res {A} (n : nat) (body : nat -> A -> res A) (s : A) : res A :=
  match n with
  | O => Ok s
  | S k => bind (for_range_res k body s) (body k)
  end.

Lemma for_range_res_inv :
  forall {A} (P : nat -> A -> Prop) (n : nat) (body : nat -> A -> res A) (s r : A),
    P 0 s ->
    (forall k x y, k < n -> P k x -> body k x = Ok y -> P (S k) y) ->
    for_range_res n body s = Ok r ->
    P n r.
Proof.
  intros A P n; induction n as [|n IH]; intros body s r H0 Hstep Hr; simpl in *.
  - inversion Hr; subst; exact H0.
  - destruct (for_range_res n body s) as [x|e] eqn:E; simpl in Hr; [|discriminate].
    apply (Hstep n x r); [lia| |exact Hr].
    apply (IH body s x H0); [|exact E].
    intros k y z Hk; apply Hstep; lia.
Qed.

(** Array assignments [a[i] = v] and [m[i, j] = v]. *)
Definition upd {A} (a : nat -> A) (i : nat) (v : A) : nat -> A :=
  fun k => if Nat.eqb k i then v else a k.

Definition upd2 {A} (m : nat -> nat -> A) (i j : nat) (v : A) : nat -> nat -> A :=
  fun k l => if andb (Nat.eqb k i) (Nat.eqb l j) then v else m k l.

Lemma upd_same : forall {A} (a : nat -> A) i v, upd a i v i = v.
Proof. intros; unfold upd; now rewrite Nat.eqb_refl. Qed.

Lemma upd_other : forall {A} (a : nat -> A) i v k, k <> i -> upd a i v k = a k.
Proof. intros A a i v k H; unfold upd. apply Nat.eqb_neq in H; now rewrite H. Qed.

Lemma upd2_same : forall {A} (m : nat -> nat -> A) i j v, upd2 m i j v i j = v.
Proof. intros; unfold upd2; now rewrite !Nat.eqb_refl. Qed.

Lemma upd2_other :
  forall {A} (m : nat -> nat -> A) i j v k l,
    k <> i \/ l <> j -> upd2 m i j v k l = m k l.
Proof.
  intros A m i j v k l H; unfold upd2.
  destruct (Nat.eqb_spec k i); destruct (Nat.eqb_spec l j); simpl; try reflexivity.
  subst; destruct H; congruence.
Qed.
