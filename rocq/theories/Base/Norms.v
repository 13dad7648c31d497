(** Maximum norm of a vector, as [abs(v).max()]. *)
From Coq Require Import Reals Arith Lia Lra.
Open Scope R_scope.

Fixpoint vmax (n : nat) (f : nat -> R) : R :=
  match n with
  | O => 0
  | S k => Rmax (vmax k f) (f k)
  end.

(** [abs(v).max()] over [n] entries (numpy raises on an empty array: callers guard). *)
Definition supnorm (n : nat) (v : nat -> R) : R := vmax n (fun i => Rabs (v i)).

Lemma vmax_nonneg : forall n f, 0 <= vmax n f.
Proof. induction n as [|n IH]; intros f; simpl; [lra|]. eapply Rle_trans; [apply (IH f)|apply Rmax_l]. Qed.

Lemma supnorm_nonneg : forall n v, 0 <= supnorm n v.
Proof. intros; apply vmax_nonneg. Qed.

Lemma supnorm_ge : forall n v i, (i < n)%nat -> Rabs (v i) <= supnorm n v.
Proof.
  unfold supnorm. induction n as [|n IH]; intros v i Hi; [lia|]. simpl.
  destruct (Nat.eq_dec i n) as [->|Hne]; [apply Rmax_r|].
  eapply Rle_trans; [apply IH; lia|apply Rmax_l].
Qed.

Lemma supnorm_le : forall n v c, 0 <= c -> (forall i, (i < n)%nat -> Rabs (v i) <= c) -> supnorm n v <= c.
Proof.
  unfold supnorm. induction n as [|n IH]; intros v c Hc H; simpl; [assumption|].
  apply Rmax_lub; [apply IH; [assumption|intros; apply H; lia]|apply H; lia].
Qed.

Lemma supnorm_lt : forall n v c, 0 < c -> (forall i, (i < n)%nat -> Rabs (v i) < c) -> supnorm n v < c.
Proof.
  unfold supnorm. induction n as [|n IH]; intros v c Hc H; simpl; [assumption|].
  apply Rmax_lub_lt; [apply IH; [assumption|intros; apply H; lia]|apply H; lia].
Qed.

Lemma supnorm_ext : forall n v w, (forall i, (i < n)%nat -> v i = w i) -> supnorm n v = supnorm n w.
Proof.
  unfold supnorm. induction n as [|n IH]; intros v w H; simpl; [reflexivity|].
  rewrite (IH v w), (H n) by (intros; try apply H; lia). reflexivity.
Qed.

Lemma supnorm_attained : forall n v, (0 < n)%nat -> exists i, (i < n)%nat /\ supnorm n v = Rabs (v i).
Proof.
  unfold supnorm. induction n as [|n IH]; intros v Hn; [lia|]. simpl.
  destruct n as [|n].
  - exists 0%nat. split; [lia|]. simpl. apply Rmax_right. apply Rabs_pos.
  - destruct (IH v ltac:(lia)) as (i & Hi & E). rewrite E. unfold Rmax.
    destruct (Rle_dec (Rabs (v i)) (Rabs (v (S n)))); [exists (S n)|exists i]; split; try lia; reflexivity.
Qed.

Lemma supnorm_zero_iff : forall n v, supnorm n v = 0 <-> forall i, (i < n)%nat -> v i = 0.
Proof.
  intros n v. split.
  - intros H i Hi. pose proof (supnorm_ge n v i Hi) as Hg. rewrite H in Hg.
    pose proof (Rabs_pos (v i)). destruct (Req_dec (v i) 0) as [E|NE]; [assumption|].
    apply Rabs_pos_lt in NE. lra.
  - intros H. apply Rle_antisym; [|apply supnorm_nonneg]. apply supnorm_le; [lra|].
    intros i Hi. rewrite (H i Hi), Rabs_R0. lra.
Qed.

Lemma supnorm_triang : forall n v w, supnorm n (fun i => v i + w i) <= supnorm n v + supnorm n w.
Proof.
  intros n v w. apply supnorm_le.
  - pose proof (supnorm_nonneg n v). pose proof (supnorm_nonneg n w). lra.
  - intros i Hi. eapply Rle_trans; [apply Rabs_triang|].
    pose proof (supnorm_ge n v i Hi). pose proof (supnorm_ge n w i Hi). lra.
Qed.
