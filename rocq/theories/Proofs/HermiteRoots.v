(** The n-th Hermite polynomial has n different real roots. *)
From Coq Require Import Reals List Arith Lia Lra.
From Verif.Base Require Import Prelude Sums.
From Verif.Spec Require Import LinearAlgebra Quadrature.
From Verif.Proofs Require Import MatrixAlgebra Hermite.
Open Scope R_scope.

Local Notation He := hermite.

Lemma H_large : forall n z, INR n + 1 <= z -> forall k, (k < n)%nat -> 0 < He k z /\ He k z <= He (S k) z.
Proof.
  intros n z Hz k. induction k as [|k IH]; intros Hk.
  - rewrite H_0, H_1. assert (Hq0 : 0 <= INR n) by apply pos_INR. lra.
  - destruct (IH ltac:(lia)) as (P & L). split; [lra|].
    rewrite H_SS. assert (Hq1 : INR (S k) + 1 <= INR n) by (rewrite <- S_INR; apply le_INR; lia).
    assert (Hq2 : 0 <= INR (S k)) by apply pos_INR.
    assert (Hq5 : INR (S k) * He k z <= INR (S k) * He (S k) z) by (apply Rmult_le_compat_l; lra).
    nra.
Qed.

Lemma H_large_pos : forall n z, INR n + 1 <= z -> 0 < He n z.
Proof.
  intros [|n] z Hz; [rewrite H_0; lra|].
  destruct (H_large (S n) z Hz n ltac:(lia)) as (P & L). lra.
Qed.

Lemma H_parity : forall n x, He n (- x) = (-1) ^ n * He n x /\ He (S n) (- x) = (-1) ^ S n * He (S n) x.
Proof.
  induction n as [|n IH]; intros x.
  - rewrite !H_0, !H_1. split; simpl; ring.
  - destruct (IH x) as (A & B). split; [exact B|]. rewrite !H_SS, A, B. cbn [pow]. ring.
Qed.

Lemma sgn_sq : forall n, (-1) ^ n * (-1) ^ n = 1.
Proof. intros n. rewrite <- Rpow_mult_distr. replace (-1 * -1) with 1 by ring. apply pow1. Qed.

Lemma H_root_bound : forall n x, He n x = 0 -> - (INR n + 1) < x < INR n + 1.
Proof.
  intros n x Hx. split.
  - apply Rnot_le_lt. intros L. pose proof (H_large_pos n (- x) ltac:(lra)) as P.
    rewrite (proj1 (H_parity n x)), Hx, Rmult_0_r in P. lra.
  - apply Rnot_le_lt. intros L. pose proof (H_large_pos n x L). lra.
Qed.

Lemma rprod_sign : forall n x z i, (i <= n)%nat ->
    (forall j, (j < i)%nat -> x j < z) -> (forall j, (i <= j)%nat -> (j < n)%nat -> z < x j) ->
    0 < (-1) ^ (n - i) * rprod n (fun j => z - x j).
Proof.
  induction n as [|n IH]; intros x z i Hi Hl Hr.
  - simpl. lra.
  - cbn [rprod]. destruct (Nat.eq_dec i (S n)) as [->|Hne].
    + rewrite Nat.sub_diag. cbn [pow]. rewrite Rmult_1_l.
      specialize (IH x z n (le_n n)). rewrite Nat.sub_diag in IH. cbn [pow] in IH. rewrite Rmult_1_l in IH.
      specialize (Hl n ltac:(lia)) as Hn. apply Rmult_lt_0_compat; [|lra].
      apply IH; intros; [apply Hl; lia|lia].
    + replace (S n - i)%nat with (S (n - i)) by lia. cbn [pow].
      specialize (IH x z i ltac:(lia) Hl ltac:(intros j A B; apply Hr; lia)).
      specialize (Hr n ltac:(lia) ltac:(lia)).
      replace (-1 * (-1) ^ (n - i) * (rprod n (fun j => z - x j) * (z - x n)))
        with (((-1) ^ (n - i) * rprod n (fun j => z - x j)) * (x n - z)) by ring.
      apply Rmult_lt_0_compat; lra.
Qed.

Lemma finite_choice : forall n (P : nat -> R -> Prop), (forall i, (i < n)%nat -> exists y, P i y) ->
    exists f, forall i, (i < n)%nat -> P i (f i).
Proof.
  induction n as [|n IH]; intros P E.
  - exists (fun _ => 0). intros; lia.
  - destruct (IH P) as (f & F); [intros i Hi; apply E; lia|].
    destruct (E n ltac:(lia)) as (y & Y).
    exists (fun i => if Nat.eqb i n then y else f i). intros i Hi.
    destruct (Nat.eqb_spec i n) as [->|]; [exact Y|apply F; lia].
Qed.

Definition rising (n : nat) (x : nat -> R) : Prop := forall i j, (i < j)%nat -> (j < n)%nat -> x i < x j.

Lemma rising_distinct : forall n x, rising n x -> forall i j, (i < n)%nat -> (j < n)%nat -> x i = x j -> i = j.
Proof.
  intros n x M i j Hi Hj E. destruct (lt_eq_lt_dec i j) as [[L|L]|L]; [|exact L|].
  - specialize (M i j L Hj). lra.
  - specialize (M j i L Hi). lra.
Qed.

Lemma roots_step : forall n x, (1 <= n)%nat -> rising n x ->
    (forall i, (i < n)%nat -> He n (x i) = 0 /\ 0 < (-1) ^ (n - 1 - i) * He (n - 1) (x i)) ->
    exists y, rising (S n) y /\
      forall i, (i < S n)%nat -> He (S n) (y i) = 0 /\ 0 < (-1) ^ (n - i) * He n (y i).
Proof.
  intros n x Hn M HX.
  set (B := INR (S n) + 1).
  set (a := fun i => match i with O => - B | S j => if Nat.ltb j n then x j else B end).
  assert (HB : forall j, (j < n)%nat -> - B < x j < B).
  { intros j Hj. pose proof (H_root_bound n (x j) (proj1 (HX j Hj))). unfold B. rewrite S_INR. lra. }
  assert (HBpos : 0 < B) by (unfold B; pose proof (pos_INR (S n)); lra).
  assert (Ha : forall i, (i <= n)%nat -> a i < a (S i)).
  { intros [|i] Hi; unfold a.
    - destruct (Nat.ltb_spec 0 n); [apply HB; lia|lia].
    - destruct (Nat.ltb_spec i n); [|lia]. destruct (Nat.ltb_spec (S i) n); [apply M; lia|apply HB; lia]. }
  assert (Hs : forall i, (i <= S n)%nat -> 0 < (-1) ^ (S n - i) * He (S n) (a i)).
  { intros [|i] Hi; unfold a.
    - rewrite Nat.sub_0_r. rewrite (proj1 (H_parity (S n) B)), <- Rmult_assoc, sgn_sq, Rmult_1_l.
      apply H_large_pos. unfold B. lra.
    - destruct (Nat.ltb_spec i n).
      + destruct (HX i ltac:(lia)) as (Z & P). rewrite H_rec by exact Hn. rewrite Z.
        replace (S n - S i)%nat with (S (n - 1 - i)) by lia. cbn [pow].
        replace (-1 * (-1) ^ (n - 1 - i) * (2 * x i * 0 - 2 * INR n * He (n - 1) (x i)))
          with (2 * INR n * ((-1) ^ (n - 1 - i) * He (n - 1) (x i))) by ring.
        assert (Hq3 : 0 < INR n) by (apply lt_0_INR; lia). nra.
      + replace (S n - S i)%nat with O by lia. cbn [pow]. rewrite Rmult_1_l.
        apply H_large_pos. unfold B. lra. }
  destruct (finite_choice (S n) (fun i z => a i < z < a (S i) /\ He (S n) z = 0)) as (y & Y).
  { intros i Hi.
    pose proof (Hs i ltac:(lia)) as S1. pose proof (Hs (S i) ltac:(lia)) as S2.
    replace (S n - i)%nat with (S (S n - S i)) in S1 by lia. cbn [pow] in S1.
    set (sg := (-1) ^ (S n - S i)) in *.
    assert (C : continuity (fun z => sg * He (S n) z)).
    { apply (continuity_scal (He (S n)) sg), H_cont. }
    destruct (IVT (fun z => sg * He (S n) z) (a i) (a (S i)) C (Ha i ltac:(lia)) ltac:(cbv beta; lra) S2) as (z & Z & E).
    cbv beta in E. assert (E0 : He (S n) z = 0).
    { assert (Q := sgn_sq (S n - S i)). fold sg in Q. nra. }
    exists z. split; [|exact E0]. split.
    - destruct (Req_dec (a i) z) as [X|X]; [|lra]. rewrite X, E0 in S1. lra.
    - destruct (Req_dec z (a (S i))) as [X|X]; [|lra]. rewrite <- X, E0 in S2. lra. }
  assert (Am : forall i j, (i <= j)%nat -> (j <= S n)%nat -> a i <= a j).
  { intros i j Hij. induction Hij as [|j Hij IH]; intros Hj; [lra|].
    specialize (IH ltac:(lia)). specialize (Ha j ltac:(lia)). lra. }
  exists y. split.
  - intros i j Hij Hj. destruct (Y i ltac:(lia)) as ((_ & U) & _), (Y j Hj) as ((L & _) & _).
    specialize (Am (S i) j ltac:(lia) ltac:(lia)). lra.
  - intros i Hi. destruct (Y i Hi) as ((L & U) & Z). split; [exact Z|].
    rewrite (H_factor n x) by (split; [intros j Hj; apply HX, Hj|apply rising_distinct, M]).
    rewrite <- Rmult_assoc, (Rmult_comm ((-1) ^ (n - i))), Rmult_assoc.
    apply Rmult_lt_0_compat; [apply pow_lt; lra|].
    apply rprod_sign; [lia| |].
    + intros j Hj. specialize (Am (S j) i ltac:(lia) ltac:(lia)). unfold a at 1 in Am.
      destruct (Nat.ltb_spec j n); [lra|lia].
    + intros j Hj Hjn. specialize (Am (S i) (S j) ltac:(lia) ltac:(lia)). unfold a at 2 in Am.
      destruct (Nat.ltb_spec j n); [lra|lia].
Qed.

Lemma roots_exist_sign : forall n, exists x, rising (S n) x /\
    forall i, (i < S n)%nat -> He (S n) (x i) = 0 /\ 0 < (-1) ^ (n - i) * He n (x i).
Proof.
  induction n as [|n (x & M & HX)].
  - exists (fun _ => 0). split; [intros i j; lia|]. intros i Hi. rewrite H_1, H_0.
    replace (0 - i)%nat with O by lia. simpl. lra.
  - apply (roots_step (S n) x); [lia|exact M|]. intros i Hi.
    replace (S n - 1)%nat with n by lia. apply HX, Hi.
Qed.

Lemma roots_exist : forall n, exists x, rising n x /\ hermite_nodes n x.
Proof.
  intros [|n].
  - exists (fun _ => 0). split; [intros i j; lia|]. split; intros; lia.
  - destruct (roots_exist_sign n) as (x & M & HX). exists x. split; [exact M|].
    split; [intros i Hi; apply HX, Hi|apply rising_distinct, M].
Qed.

(** There are no other roots. *)
Lemma rprod_zero : forall n f, rprod n f = 0 -> exists i, (i < n)%nat /\ f i = 0.
Proof.
  induction n as [|n IH]; intros f E; cbn [rprod] in E; [lra|].
  destruct (Rmult_integral _ _ E) as [E1|E1].
  - destruct (IH f E1) as (i & Hi & Z). exists i. split; [lia|exact Z].
  - exists n. split; [lia|exact E1].
Qed.

Lemma roots_all : forall n x, hermite_nodes n x -> forall z, He n z = 0 -> exists i, (i < n)%nat /\ z = x i.
Proof.
  intros n x Hx z Z. rewrite (H_factor n x Hx) in Z.
  assert (Hq4 : 0 < 2 ^ n) by (apply pow_lt; lra).
  destruct (Rmult_integral _ _ Z) as [E|E]; [lra|].
  destruct (rprod_zero _ _ E) as (i & Hi & W). exists i. split; [exact Hi|lra].
Qed.
