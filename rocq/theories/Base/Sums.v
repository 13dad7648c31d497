(** Finite sums of reals. *)
From Coq Require Import Reals List Arith Lia Lra.
From Verif.Base Require Import Prelude.
Import ListNotations.
Open Scope R_scope.

(** [rsum n f] is f 0 + ... + f (n-1). *)
Fixpoint rsum (n : nat) (f : nat -> R) : R :=
  match n with
  | O => 0
  | S k => rsum k f + f k
  end.

Lemma rsum_ext : forall n f g, (forall i, (i < n)%nat -> f i = g i) -> rsum n f = rsum n g.
Proof.
  induction n as [|n IH]; intros f g H; simpl; [reflexivity|].
  rewrite (IH f g), (H n) by (intros; try apply H; lia). reflexivity.
Qed.

Lemma rsum_plus : forall n f g, rsum n (fun i => f i + g i) = rsum n f + rsum n g.
Proof. induction n as [|n IH]; intros; simpl; [lra|]. rewrite IH; lra. Qed.

Lemma rsum_minus : forall n f g, rsum n (fun i => f i - g i) = rsum n f - rsum n g.
Proof. induction n as [|n IH]; intros; simpl; [lra|]. rewrite IH; lra. Qed.

Lemma rsum_opp : forall n f, rsum n (fun i => - f i) = - rsum n f.
Proof. induction n as [|n IH]; intros; simpl; [lra|]. rewrite IH; lra. Qed.

Lemma rsum_scal : forall n c f, rsum n (fun i => c * f i) = c * rsum n f.
Proof. induction n as [|n IH]; intros; simpl; [lra|]. rewrite IH; lra. Qed.

Lemma rsum_scal_r : forall n c f, rsum n (fun i => f i * c) = rsum n f * c.
Proof. induction n as [|n IH]; intros; simpl; [lra|]. rewrite IH; lra. Qed.

Lemma rsum_0 : forall n f, (forall i, (i < n)%nat -> f i = 0) -> rsum n f = 0.
Proof.
  induction n as [|n IH]; intros f H; simpl; [reflexivity|].
  rewrite IH, H by (intros; try apply H; lia). lra.
Qed.

Lemma rsum_const : forall n c, rsum n (fun _ => c) = INR n * c.
Proof.
  induction n as [|n IH]; intros; [simpl; lra|].
  rewrite S_INR; simpl; rewrite IH; lra.
Qed.

Lemma rsum_split : forall n m f, rsum (n + m) f = rsum n f + rsum m (fun i => f (n + i)%nat).
Proof.
  intros n m f; induction m as [|m IH]; simpl.
  - rewrite Nat.add_0_r; lra.
  - rewrite Nat.add_succ_r; simpl; rewrite IH; lra.
Qed.

Lemma rsum_head : forall n f, rsum (S n) f = f 0%nat + rsum n (fun i => f (S i)).
Proof.
  intros n f. change (S n) with (1 + n)%nat. rewrite rsum_split; simpl; lra.
Qed.

Lemma rsum_rev : forall n f, rsum n f = rsum n (fun i => f (n - 1 - i)%nat).
Proof.
  induction n as [|n IH]; intros f; [reflexivity|].
  rewrite rsum_head. cbn [rsum]. rewrite (IH (fun i => f (S i))).
  rewrite Rplus_comm. f_equal.
  - apply rsum_ext; intros i Hi. f_equal; lia.
  - f_equal; lia.
Qed.

Lemma rsum_swap : forall n m (f : nat -> nat -> R),
    rsum n (fun i => rsum m (fun j => f i j)) = rsum m (fun j => rsum n (fun i => f i j)).
Proof.
  induction n as [|n IH]; intros m f; simpl.
  - symmetry; apply rsum_0; reflexivity.
  - rewrite IH, rsum_plus; reflexivity.
Qed.

Lemma rsum_single : forall n k f,
    (k < n)%nat -> (forall i, (i < n)%nat -> i <> k -> f i = 0) -> rsum n f = f k.
Proof.
  induction n as [|n IH]; intros k f Hk H; [lia|]. simpl.
  destruct (Nat.eq_dec k n) as [->|Hne].
  - rewrite rsum_0; [lra|]. intros i Hi; apply H; lia.
  - rewrite (IH k f), (H n); try lia; try lra. intros i Hi; apply H; lia.
Qed.

Lemma rsum_nonneg : forall n f, (forall i, (i < n)%nat -> 0 <= f i) -> 0 <= rsum n f.
Proof.
  induction n as [|n IH]; intros f H; simpl; [lra|].
  assert (0 <= rsum n f) by (apply IH; intros; apply H; lia).
  assert (0 <= f n) by (apply H; lia). lra.
Qed.

Lemma rsum_le : forall n f g, (forall i, (i < n)%nat -> f i <= g i) -> rsum n f <= rsum n g.
Proof.
  induction n as [|n IH]; intros f g H; simpl; [lra|].
  assert (rsum n f <= rsum n g) by (apply IH; intros; apply H; lia).
  assert (f n <= g n) by (apply H; lia). lra.
Qed.

Lemma rsum_abs : forall n f, Rabs (rsum n f) <= rsum n (fun i => Rabs (f i)).
Proof.
  induction n as [|n IH]; intros f; simpl.
  - rewrite Rabs_R0; lra.
  - eapply Rle_trans; [apply Rabs_triang|]. specialize (IH f); lra.
Qed.

Lemma rsum_nonneg_0 : forall n f,
    (forall i, (i < n)%nat -> 0 <= f i) -> rsum n f = 0 -> forall i, (i < n)%nat -> f i = 0.
Proof.
  induction n as [|n IH]; intros f H H0 i Hi; [lia|]. simpl in H0.
  assert (0 <= rsum n f) by (apply rsum_nonneg; intros; apply H; lia).
  assert (0 <= f n) by (apply H; lia).
  destruct (Nat.eq_dec i n) as [->|Hne]; [lra|].
  apply (IH f); [intros; apply H; lia|lra|lia].
Qed.

Lemma rsum_telescope : forall n f, rsum n (fun i => f (S i) - f i) = f n - f 0%nat.
Proof. induction n as [|n IH]; intros f; simpl; [lra|]. rewrite IH; lra. Qed.

(** Sum over a product index laid out in C order. *)
Lemma rsum_prod : forall n m (f : nat -> nat -> R),
    rsum (n * m) (fun k => f (k / m)%nat (k mod m)%nat)
    = rsum n (fun i => rsum m (fun j => f i j)).
Proof.
  intros n m f. destruct (Nat.eq_dec m 0) as [->|Hm].
  - rewrite Nat.mul_0_r; simpl. symmetry; apply rsum_0; reflexivity.
  - induction n as [|n IH]; [reflexivity|].
    replace (S n * m)%nat with (n * m + m)%nat by lia.
    rewrite rsum_split, IH. simpl. f_equal.
    apply rsum_ext; intros j Hj.
    rewrite Nat.div_add_l by lia. rewrite Nat.div_small, Nat.add_0_r by lia.
    rewrite Nat.add_comm, Nat.mod_add, Nat.mod_small by lia. reflexivity.
Qed.

(** Sum of a list of reals. *)
Fixpoint lsum (l : list R) : R :=
  match l with
  | [] => 0
  | x :: l' => x + lsum l'
  end.

Lemma lsum_app : forall l1 l2, lsum (l1 ++ l2) = lsum l1 + lsum l2.
Proof. induction l1 as [|x l1 IH]; intros; simpl; [lra|]. rewrite IH; lra. Qed.

Lemma lsum_map_scal : forall A c (f : A -> R) l,
    lsum (map (fun x => c * f x) l) = c * lsum (map f l).
Proof. induction l as [|x l IH]; simpl; [lra|]. rewrite IH; lra. Qed.

Lemma lsum_map_plus : forall A (f g : A -> R) l,
    lsum (map (fun x => f x + g x) l) = lsum (map f l) + lsum (map g l).
Proof. induction l as [|x l IH]; simpl; [lra|]. rewrite IH; lra. Qed.

Lemma lsum_scal : forall c l, lsum (map (Rmult c) l) = c * lsum l.
Proof. induction l as [|x l IH]; simpl; [lra|]. rewrite IH; lra. Qed.

Lemma lsum_nonneg : forall l, (forall x, In x l -> 0 <= x) -> 0 <= lsum l.
Proof.
  induction l as [|x l IH]; intros H; simpl; [lra|].
  assert (0 <= x) by (apply H; left; reflexivity).
  assert (0 <= lsum l) by (apply IH; intros; apply H; right; assumption). lra.
Qed.

Lemma lsum_rsum : forall l, lsum l = rsum (length l) (fun i => nth i l 0).
Proof.
  induction l as [|x l IH]; [reflexivity|].
  change (length (x :: l)) with (S (length l)). rewrite rsum_head. simpl. rewrite IH. reflexivity.
Qed.

Lemma lsum_seq : forall n f, lsum (map f (seq 0 n)) = rsum n f.
Proof.
  induction n as [|n IH]; intros f; [reflexivity|].
  rewrite seq_S, map_app, lsum_app, IH. simpl. lra.
Qed.

Lemma lsum_repeat : forall n c, lsum (repeat c n) = INR n * c.
Proof.
  induction n as [|n IH]; intros; [simpl; lra|].
  rewrite S_INR; simpl; rewrite IH; lra.
Qed.

Lemma lsum_flat_map : forall A (f : A -> list R) l,
    lsum (flat_map f l) = lsum (map (fun x => lsum (f x)) l).
Proof. induction l as [|x l IH]; simpl; [reflexivity|]. rewrite lsum_app, IH; lra. Qed.
