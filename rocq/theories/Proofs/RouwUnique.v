(** The long run of Rouwenhorst chains: one stationary law, moments at all horizons. *)
From Coq Require Import Reals Arith Lia Lra Bool.
From Verif.Base Require Import Prelude Arrays Sums.
From Verif.Model Require Import Discretization.
From Verif.Spec Require Import Markov Stationary.
From Verif.Proofs Require Import Rouwenhorst RouwStationary DiscretizationFinal StationaryLaws.
Open Scope R_scope.

Lemma rouw_pad_hit : forall n dr dc m0 i j, (dr <= i)%nat -> (i - dr < n - 1)%nat -> (dc <= j)%nat -> (j - dc < n - 1)%nat ->
    rouw_pad n dr dc m0 i j = m0 (i - dr)%nat (j - dc)%nat.
Proof.
  intros n dr dc m0 i j A B C D. unfold rouw_pad.
  apply Nat.leb_le in A, C. apply Nat.ltb_lt in B, D. rewrite A, B, C, D. reflexivity.
Qed.

Lemma rouw_mat_pos : forall p q N, 0 < p < 1 -> 0 < q < 1 -> (2 <= N)%nat ->
    forall i j, (i < N)%nat -> (j < N)%nat -> 0 < rouw_mat p q N i j.
Proof.
  intros p q N Hp Hq HN. induction N as [|N IH]; [lia|].
  destruct (Nat.eq_dec N 1) as [->|Hne].
  - intros i j Hi Hj. unfold rouw_mat; simpl. destruct i as [|i]; destruct j as [|j]; simpl; lra.
  - intros i j Hi Hj. rewrite rouw_mat_succ by lia. unfold rouw_step.
    assert (HP : forall dr dc, 0 <= rouw_pad (S N) dr dc (rouw_mat p q N) i j).
    { intros. apply rouw_pad_nonneg. replace (S N - 1)%nat with N by lia. intros; left; apply IH; lia. }
    pose proof (HP 0%nat 0%nat) as A. pose proof (HP 0%nat 1%nat) as B. pose proof (HP 1%nat 0%nat) as C. pose proof (HP 1%nat 1%nat) as D.
    assert (Pos : 0 < rouw_pad (S N) 0 0 (rouw_mat p q N) i j \/ 0 < rouw_pad (S N) 0 1 (rouw_mat p q N) i j
            \/ 0 < rouw_pad (S N) 1 0 (rouw_mat p q N) i j \/ 0 < rouw_pad (S N) 1 1 (rouw_mat p q N) i j).
    { destruct (Nat.eq_dec i 0) as [Ei|Ei]; destruct (Nat.eq_dec j 0) as [Ej|Ej].
      - left. rewrite rouw_pad_hit by lia. apply IH; lia.
      - right; left. rewrite rouw_pad_hit by lia. apply IH; lia.
      - right; right; left. rewrite rouw_pad_hit by lia. apply IH; lia.
      - right; right; right. rewrite rouw_pad_hit by lia. apply IH; lia. }
    assert (0 < p * rouw_pad (S N) 0 0 (rouw_mat p q N) i j
            + (1 - p) * rouw_pad (S N) 0 1 (rouw_mat p q N) i j
            + (1 - q) * rouw_pad (S N) 1 0 (rouw_mat p q N) i j
            + q * rouw_pad (S N) 1 1 (rouw_mat p q N) i j).
    { apply (Rmult_le_compat_l p) in A; [|lra]. apply (Rmult_le_compat_l (1 - p)) in B; [|lra].
      apply (Rmult_le_compat_l (1 - q)) in C; [|lra]. apply (Rmult_le_compat_l q) in D; [|lra].
      rewrite Rmult_0_r in A, B, C, D.
      destruct Pos as [Q|[Q|[Q|Q]]].
      - apply (Rmult_lt_0_compat p) in Q; lra.
      - apply (Rmult_lt_0_compat (1 - p)) in Q; lra.
      - apply (Rmult_lt_0_compat (1 - q)) in Q; lra.
      - apply (Rmult_lt_0_compat q) in Q; lra. }
    destruct (Nat.leb 1 i && Nat.ltb i (S N - 1))%bool; lra.
Qed.

Lemma rouw_stochastic : forall rho sigma N nodes P, (2 <= N)%nat -> rouwenhorst rho sigma N = Ok (nodes, P) -> stochastic N P.
Proof.
  intros rho sigma N nodes P HN E. destruct (rouwenhorst_ok_inv rho sigma N nodes P HN E) as (_ & -> & Hr).
  assert (-1 < rho < 1) by (split; nra). split; [reflexivity|]. split; [reflexivity|]. split.
  - intros i j Hi Hj. apply rouw_mat_nonneg; try assumption; lra.
  - intros i Hi. apply rouw_mat_row_sum; assumption.
Qed.

Lemma rouwenhorst_only_law : forall rho sigma N nodes P, (2 <= N)%nat -> rouwenhorst rho sigma N = Ok (nodes, P) ->
    stationary_law N P (binom_half N) /\ only_law N P.
Proof.
  intros rho sigma N nodes P HN E. destruct (rouwenhorst_stationary_final rho sigma N nodes P HN E) as (A & B & _).
  split.
  - split; [exact A|]. split; [|exact B]. intros i Hi. unfold binom_half. apply Rmult_le_pos.
    + unfold C. apply Rmult_le_pos; [apply pos_INR|]. left. apply Rinv_0_lt_compat.
      apply Rmult_lt_0_compat; apply INR_fact_lt_0.
    + left. apply Rinv_0_lt_compat. apply pow_lt. lra.
  - apply (reached_unique N P (rouw_stochastic rho sigma N nodes P HN E) 0 ltac:(lia)).
    intros i Hi. destruct (rouwenhorst_ok_inv rho sigma N nodes P HN E) as (_ & -> & Hr).
    assert (-1 < rho < 1) by (split; nra). cbn [mget]. apply rouw_mat_pos; try lia; lra.
Qed.

(** Means after k dates are linear. *)
Lemma mean_after_ext : forall n P k w v, (forall i, (i < n)%nat -> w i = v i) -> forall i, (i < n)%nat ->
    mean_after n P k w i = mean_after n P k v i.
Proof.
  induction k as [|k IH]; intros w v H i Hi; cbn [mean_after]; [apply H, Hi|].
  apply rsum_ext. intros j Hj. rewrite (IH w v H j Hj). reflexivity.
Qed.
Lemma mean_after_comb : forall n P k w v a b i,
    mean_after n P k (fun j => a * w j + b * v j) i = a * mean_after n P k w i + b * mean_after n P k v i.
Proof.
  induction k as [|k IH]; intros w v a b i; cbn [mean_after]; [reflexivity|].
  rewrite (rsum_ext n _ (fun j => a * (mget P i j * mean_after n P k w j) + b * (mget P i j * mean_after n P k v j)))
    by (intros j Hj; rewrite IH; ring).
  rewrite rsum_plus, !rsum_scal. reflexivity.
Qed.
Lemma mean_after_const : forall n P k c, stochastic n P -> forall i, (i < n)%nat -> mean_after n P k (fun _ => c) i = c.
Proof.
  induction k as [|k IH]; intros c H i Hi; cbn [mean_after]; [reflexivity|].
  rewrite (rsum_ext n _ (fun j => mget P i j * c)) by (intros j Hj; rewrite IH by assumption; reflexivity).
  rewrite rsum_scal_r. destruct H as (_ & _ & _ & H). rewrite H by exact Hi. ring.
Qed.

Lemma rouwenhorst_horizon : forall rho sigma N nodes P k, (2 <= N)%nat -> rouwenhorst rho sigma N = Ok (nodes, P) ->
    forall i, (i < N)%nat ->
      mean_after N P k (vget nodes) i = rho ^ k * vget nodes i /\
      mean_after N P k (fun j => (vget nodes j - rho ^ k * vget nodes i) ^ 2) i
      = sigma ^ 2 * (1 - (rho ^ k) ^ 2) / (1 - rho ^ 2).
Proof.
  intros rho sigma N nodes P k HN E.
  destruct (rouwenhorst_ok_inv rho sigma N nodes P HN E) as (_ & _ & Hr).
  destruct (rouwenhorst_moments_final rho sigma N nodes P HN E) as (M & _).
  pose proof (rouw_stochastic rho sigma N nodes P HN E) as HS. set (z := vget nodes) in *.
  assert (M1 : forall i, (i < N)%nat -> rsum N (fun j => mget P i j * z j) = rho * z i) by (intros i Hi; apply (M i Hi)).
  assert (M2 : forall i, (i < N)%nat -> rsum N (fun j => mget P i j * z j ^ 2) = sigma ^ 2 + rho ^ 2 * z i ^ 2).
  { intros i Hi. destruct (M i Hi) as [A B]. unfold next_mean in A, B.
    rewrite (rsum_ext N (fun j => mget P i j * (z j - rho * z i) ^ 2)
      (fun j => mget P i j * z j ^ 2 + (-2 * rho * z i * (mget P i j * z j) + (rho * z i) ^ 2 * mget P i j))) in B by (intros; ring).
    rewrite !rsum_plus, !rsum_scal in B. rewrite A in B. destruct HS as (_ & _ & _ & H1). assert (H1' : rsum N (mget P i) = 1) by exact (H1 i Hi). rewrite H1' in B.
    change (next_mean N P i z) with (rsum N (fun j => mget P i j * z j)) in A. nra. }
  assert (K1 : forall k i, (i < N)%nat -> mean_after N P k z i = rho ^ k * z i).
  { clear k. induction k as [|k IH]; intros i Hi; cbn [mean_after]; [simpl; ring|].
    rewrite (rsum_ext N _ (fun j => rho ^ k * (mget P i j * z j))) by (intros j Hj; rewrite IH by exact Hj; ring).
    rewrite rsum_scal, M1 by exact Hi. simpl. ring. }
  assert (K2 : forall k i, (i < N)%nat -> mean_after N P k (fun j => z j ^ 2) i
            = (rho ^ k) ^ 2 * z i ^ 2 + sigma ^ 2 * (1 - (rho ^ k) ^ 2) / (1 - rho ^ 2)).
  { clear k. induction k as [|k IH]; intros i Hi; cbn [mean_after]; [rewrite pow_O; field; lra|].
    rewrite (rsum_ext N _ (fun j => (rho ^ k) ^ 2 * (mget P i j * z j ^ 2) + sigma ^ 2 * (1 - (rho ^ k) ^ 2) / (1 - rho ^ 2) * mget P i j))
      by (intros j Hj; rewrite IH by exact Hj; ring).
    rewrite rsum_plus, !rsum_scal, M2 by exact Hi. destruct HS as (_ & _ & _ & H1). assert (H1' : rsum N (mget P i) = 1) by exact (H1 i Hi). rewrite H1'.
    change (rho ^ S k) with (rho * rho ^ k). field. lra. }
  intros i Hi. split; [apply K1, Hi|].
  rewrite (mean_after_ext N P k _ (fun j => 1 * (z j ^ 2) + 1 * (-2 * rho ^ k * z i * z j + (rho ^ k * z i) ^ 2 * 1))) by (intros; try ring; exact Hi).
  rewrite (mean_after_comb N P k (fun j => z j ^ 2) (fun j => -2 * rho ^ k * z i * z j + (rho ^ k * z i) ^ 2 * 1)).
  rewrite (mean_after_comb N P k z (fun _ => 1)). rewrite K1, K2, mean_after_const by assumption. ring.
Qed.
