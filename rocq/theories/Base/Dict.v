(** Python dictionaries with string keys: association lists in insertion
    order, at most one entry per key. *)
From Coq Require Import String List Bool.
Import ListNotations.

Definition dict (V : Type) := list (string * V).

Section Dict.
Context {V : Type}.

(** [d.get(k)] *)
Fixpoint dget (d : dict V) (k : string) : option V :=
  match d with
  | [] => None
  | (k', v) :: r => if String.eqb k k' then Some v else dget r k
  end.

(** [d[k] = v]: an existing key keeps its place, a new one goes last. *)
Fixpoint dset (d : dict V) (k : string) (v : V) : dict V :=
  match d with
  | [] => [(k, v)]
  | (k', v') :: r => if String.eqb k k' then (k', v) :: r else (k', v') :: dset r k v
  end.

(** [d.pop(k)] *)
Definition ddel (d : dict V) (k : string) : dict V :=
  filter (fun e => negb (String.eqb k (fst e))) d.

(** [k in d] *)
Definition dmem (d : dict V) (k : string) : bool :=
  match dget d k with Some _ => true | None => false end.

(** [d.keys()] *)
Definition dkeys (d : dict V) : list string := map fst d.

(** [d.update(u)] *)
Definition dupdate (d u : dict V) : dict V :=
  fold_left (fun acc e => dset acc (fst e) (snd e)) u d.

Lemma dget_dset : forall d k v k',
  dget (dset d k v) k' = if String.eqb k' k then Some v else dget d k'.
Proof.
  intros d; induction d as [|[k0 v0] r IH]; intros k v k'; simpl.
  - reflexivity.
  - destruct (String.eqb k k0) eqn:E.
    + apply String.eqb_eq in E. subst k0. simpl.
      destruct (String.eqb k' k); reflexivity.
    + simpl. destruct (String.eqb k' k0) eqn:E'.
      * apply String.eqb_eq in E'. subst k0.
        destruct (String.eqb k' k) eqn:E2; [|reflexivity].
        apply String.eqb_eq in E2. subst. rewrite String.eqb_refl in E. discriminate.
      * apply IH.
Qed.

Lemma dget_dset_same : forall d k v, dget (dset d k v) k = Some v.
Proof. intros. rewrite dget_dset, String.eqb_refl. reflexivity. Qed.

Lemma dget_dset_other : forall d k v k', k' <> k -> dget (dset d k v) k' = dget d k'.
Proof.
  intros d k v k' H. rewrite dget_dset.
  destruct (String.eqb k' k) eqn:E; [|reflexivity].
  apply String.eqb_eq in E. contradiction.
Qed.

Lemma dget_In : forall d k v, dget d k = Some v -> In (k, v) d.
Proof.
  intros d; induction d as [|[k0 v0] r IH]; intros k v H; simpl in H; [discriminate|].
  destruct (String.eqb k k0) eqn:E.
  - apply String.eqb_eq in E. inversion H; subst. left; reflexivity.
  - right. apply IH, H.
Qed.

Lemma dget_In_key : forall d k v, dget d k = Some v -> In k (dkeys d).
Proof.
  intros d k v H. apply in_map_iff. exists (k, v).
  split; [reflexivity|]. apply dget_In, H.
Qed.

Lemma In_key_dget : forall d k, In k (dkeys d) -> exists v, dget d k = Some v.
Proof.
  intros d; induction d as [|[k0 v0] r IH]; intros k H; simpl in *; [contradiction|].
  destruct (String.eqb k k0) eqn:E; [eauto|].
  apply IH. destruct H as [H|H]; [|exact H].
  subst. rewrite String.eqb_refl in E. discriminate.
Qed.

Lemma dget_None : forall d k, dget d k = None <-> ~ In k (dkeys d).
Proof.
  intros d k; split.
  - intros H C. apply In_key_dget in C. destruct C as [v C]. congruence.
  - intros H. destruct (dget d k) eqn:E; [|reflexivity].
    exfalso. apply H. eapply dget_In_key, E.
Qed.

Lemma In_dget : forall d k v, NoDup (dkeys d) -> In (k, v) d -> dget d k = Some v.
Proof.
  intros d; induction d as [|[k0 v0] r IH]; intros k v Hd H; simpl in *; [contradiction|].
  inversion Hd as [|? ? Hn Hr]; subst.
  destruct H as [H|H].
  - inversion H; subst. rewrite String.eqb_refl. reflexivity.
  - destruct (String.eqb k k0) eqn:E.
    + apply String.eqb_eq in E. subst. exfalso. apply Hn.
      apply in_map_iff. exists (k0, v). split; [reflexivity|exact H].
    + apply IH; assumption.
Qed.

Lemma dmem_spec : forall d k, dmem d k = true <-> In k (dkeys d).
Proof.
  intros d k. unfold dmem. destruct (dget d k) eqn:E; split; intros H; try reflexivity;
    try discriminate.
  - eapply dget_In_key, E.
  - apply dget_None in E. contradiction.
Qed.

Lemma dmem_false : forall d k, dmem d k = false <-> ~ In k (dkeys d).
Proof.
  intros d k. rewrite <- dmem_spec. destruct (dmem d k); split; intros H; congruence.
Qed.

Lemma dkeys_dset : forall d k v,
  dkeys (dset d k v) = if dmem d k then dkeys d else dkeys d ++ [k].
Proof.
  intros d; induction d as [|[k0 v0] r IH]; intros k v; [reflexivity|].
  unfold dmem. simpl. destruct (String.eqb k k0) eqn:E; [reflexivity|].
  unfold dkeys in *. simpl. rewrite IH. unfold dmem.
  destruct (dget r k); reflexivity.
Qed.

Lemma dset_NoDup : forall d k v, NoDup (dkeys d) -> NoDup (dkeys (dset d k v)).
Proof.
  intros d k v H. rewrite dkeys_dset. destruct (dmem d k) eqn:E; [exact H|].
  apply dmem_false in E.
  revert E H. generalize (dkeys d). intros l. induction l as [|a l IH]; intros E H; simpl.
  - constructor; [intros []|constructor].
  - inversion H; subst. constructor.
    + intros C. apply in_app_or in C. destruct C as [C|[C|[]]]; [contradiction|].
      subst. apply E. left; reflexivity.
    + apply IH; [|assumption]. intros C. apply E. right; exact C.
Qed.

Lemma dget_dupdate_other : forall u d k, ~ In k (dkeys u) -> dget (dupdate d u) k = dget d k.
Proof.
  intros u; induction u as [|[k0 v0] u IH]; intros d k H; [reflexivity|].
  unfold dupdate in *. simpl. rewrite IH.
  - apply dget_dset_other. intros C. apply H. left. subst. reflexivity.
  - intros C. apply H. right. exact C.
Qed.

(** [update] with a dictionary: its entries win. *)
Lemma dget_dupdate : forall u d k, NoDup (dkeys u) ->
  dget (dupdate d u) k = match dget u k with Some v => Some v | None => dget d k end.
Proof.
  intros u; induction u as [|[k0 v0] u IH]; intros d k H; [reflexivity|].
  inversion H as [|? ? Hn Hr]; subst.
  unfold dupdate in *. simpl. rewrite IH by exact Hr.
  destruct (String.eqb k k0) eqn:E.
  - apply String.eqb_eq in E. subst.
    destruct (dget u k0) eqn:Eu.
    + exfalso. apply Hn. apply dget_In_key in Eu. exact Eu.
    + apply dget_dset_same.
  - rewrite dget_dset, E. reflexivity.
Qed.

Lemma dget_ddel : forall d k k',
  dget (ddel d k) k' = if String.eqb k' k then None else dget d k'.
Proof.
  intros d; induction d as [|[k0 v0] r IH]; intros k k'; simpl.
  - destruct (String.eqb k' k); reflexivity.
  - destruct (String.eqb k k0) eqn:E; simpl.
    + apply String.eqb_eq in E. subst k0. rewrite IH.
      destruct (String.eqb k' k); reflexivity.
    + destruct (String.eqb k' k0) eqn:E'.
      * apply String.eqb_eq in E'. subst k0.
        rewrite String.eqb_sym, E. reflexivity.
      * apply IH.
Qed.

End Dict.
