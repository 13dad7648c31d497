(** The binomial law is stationary for the Rouwenhorst chain. *)
From Coq Require Import Reals List Arith Lia Lra Bool.
From Verif.Base Require Import Prelude Sums Arrays.
From Verif.Model Require Import Discretization.
From Verif.Spec Require Import Markov.
From Verif.Proofs Require Import Rouwenhorst.
Import ListNotations.
Open Scope R_scope.

Lemma poly_zero_bound : forall n (a : nat -> R) z,
    0 <= z <= 1 -> Rabs (rsum n (fun j => a j * z ^ j)) <= rsum n (fun j => Rabs (a j)).
Proof.
  intros n a z Hz. eapply Rle_trans; [apply rsum_abs|]. apply rsum_le; intros j Hj.
  rewrite Rabs_mult. assert (0 <= z ^ j <= 1).
  { split; [apply pow_le; lra|]. rewrite <- (pow1 j). apply pow_incr; lra. }
  rewrite (Rabs_pos_eq (z ^ j)) by lra. pose proof (Rabs_pos (a j)). nra.
Qed.

(** A polynomial that vanishes on (0,1] has null coefficients. *)
Lemma poly_zero_coeffs : forall n (a : nat -> R),
    (forall z, 0 < z <= 1 -> rsum n (fun j => a j * z ^ j) = 0) ->
    forall j, (j < n)%nat -> a j = 0.
Proof.
  induction n as [|n IH]; intros a H j Hj; [lia|].
  assert (Hz : forall z, 0 < z <= 1 -> a 0%nat + z * rsum n (fun i => a (S i) * z ^ i) = 0).
  { intros z Hz. rewrite <- (H z Hz), rsum_head. rewrite <- rsum_scal. f_equal; [simpl; ring|].
    apply rsum_ext; intros; simpl; ring. }
  assert (H0 : a 0%nat = 0).
  { set (B := rsum n (fun i => Rabs (a (S i)))).
    assert (HB : 0 <= B) by (apply rsum_nonneg; intros; apply Rabs_pos).
    destruct (Req_dec (a 0%nat) 0) as [|Hne]; [assumption|exfalso].
    pose proof (Rabs_pos_lt _ Hne) as Hp.
    set (z := Rmin 1 (Rabs (a 0%nat) / (2 * (B + 1)))).
    assert (Hq : 0 < Rabs (a 0%nat) / (2 * (B + 1))).
    { apply Rmult_lt_0_compat; [assumption|]. apply Rinv_0_lt_compat; lra. }
    assert (Hz1 : 0 < z <= 1).
    { split; [apply Rmin_glb_lt; lra|apply Rmin_l]. }
    specialize (Hz z Hz1).
    assert (Hbd : Rabs (rsum n (fun i => a (S i) * z ^ i)) <= B).
    { apply (poly_zero_bound n (fun i => a (S i)) z). lra. }
    assert (Habs : Rabs (a 0%nat) = z * Rabs (rsum n (fun i => a (S i) * z ^ i))).
    { replace (a 0%nat) with (- (z * rsum n (fun i => a (S i) * z ^ i))) by lra.
      rewrite Rabs_Ropp, Rabs_mult. rewrite (Rabs_pos_eq z) by lra. reflexivity. }
    assert (Hzle : z <= Rabs (a 0%nat) / (2 * (B + 1))) by apply Rmin_r.
    assert (z * Rabs (rsum n (fun i => a (S i) * z ^ i)) <= Rabs (a 0%nat) / (2 * (B + 1)) * B).
    { apply Rmult_le_compat; try lra. apply Rabs_pos. }
    assert (Rabs (a 0%nat) / (2 * (B + 1)) * B < Rabs (a 0%nat)).
    { replace (Rabs (a 0%nat)) with (Rabs (a 0%nat) / (2 * (B + 1)) * (2 * (B + 1))) at 2 by (field; lra).
      apply Rmult_lt_compat_l; [assumption|lra]. }
    lra. }
  destruct j as [|j]; [assumption|].
  apply (IH (fun i => a (S i))); [|lia].
  intros z Hz1. specialize (Hz z Hz1). rewrite H0 in Hz.
  assert (E : z * rsum n (fun i => a (S i) * z ^ i) = 0) by lra.
  apply Rmult_integral in E. destruct E; [lra|assumption].
Qed.

Lemma sum_f_R0_rsum : forall f n, sum_f_R0 f n = rsum (S n) f.
Proof. induction n as [|n IH]; simpl; [lra|]. rewrite IH. simpl. lra. Qed.

Lemma rouw_binomial_stationary : forall p N,
    (2 <= N)%nat ->
    forall j, (j < N)%nat ->
      rsum N (fun i => binom_half N i * rouw_mat p p N i j) = binom_half N j.
Proof.
  intros p N HN j Hj.
  assert (Hd : forall j, (j < N)%nat ->
     (fun j => rsum N (fun i => binom_half N i * rouw_mat p p N i j) - binom_half N j) j = 0).
  { apply poly_zero_coeffs. intros z _.
    rewrite (rsum_ext N _ (fun j => rsum N (fun i => binom_half N i * (rouw_mat p p N i j * z ^ j))
                                    - binom_half N j * z ^ j)).
    2:{ intros j' Hj'. rewrite Rmult_minus_distr_r, <- rsum_scal_r. f_equal.
        apply rsum_ext; intros; ring. }
    rewrite rsum_minus, rsum_swap.
    rewrite (rsum_ext N _ (fun i => / 2 ^ (N - 1) * (C (N - 1) i * (1 - p + p * z) ^ i
                                       * (p + (1 - p) * z) ^ (N - 1 - i)))).
    2:{ intros i Hi. rewrite rsum_scal, rouw_mat_pgf by assumption.
        unfold rouw_pgf, binom_half. field. apply pow_nonzero; lra. }
    rewrite rsum_scal.
    replace N with (S (N - 1)) at 2 by lia. rewrite <- (sum_f_R0_rsum (fun i => C (N - 1) i * (1 - p + p * z) ^ i
                                       * (p + (1 - p) * z) ^ (N - 1 - i))).
    rewrite <- binomial.
    rewrite (rsum_ext N (fun j => binom_half N j * z ^ j)
               (fun j => / 2 ^ (N - 1) * (C (N - 1) j * z ^ j * 1 ^ (N - 1 - j)))).
    2:{ intros i Hi. unfold binom_half. rewrite pow1. field. apply pow_nonzero; lra. }
    rewrite rsum_scal.
    replace N with (S (N - 1)) at 4 by lia. rewrite <- (sum_f_R0_rsum (fun j => C (N - 1) j * z ^ j * 1 ^ (N - 1 - j))).
    rewrite <- binomial.
    replace (1 - p + p * z + (p + (1 - p) * z)) with (z + 1) by ring. ring. }
  specialize (Hd j Hj). simpl in Hd. lra.
Qed.

Lemma binom_half_sum : forall N, (1 <= N)%nat -> rsum N (binom_half N) = 1.
Proof.
  intros N HN.
  rewrite (rsum_ext N _ (fun j => / 2 ^ (N - 1) * (C (N - 1) j * 1 ^ j * 1 ^ (N - 1 - j)))).
  2:{ intros i Hi. unfold binom_half. rewrite !pow1. field. apply pow_nonzero; lra. }
  rewrite rsum_scal. replace N with (S (N - 1)) at 2 by lia.
  rewrite <- (sum_f_R0_rsum (fun j => C (N - 1) j * 1 ^ j * 1 ^ (N - 1 - j))).
  rewrite <- binomial. replace (1 + 1) with 2 by ring. field. apply pow_nonzero; lra.
Qed.

(** Any stationary law of a chain with these conditional moments has the
    unconditional variance of the AR(1). *)
Lemma stationary_variance : forall N (P : mat) (y mu : nat -> R) rho s2,
    0 < 1 - rho ^ 2 ->
    (forall i, (i < N)%nat -> rsum N (fun j => mget P i j) = 1) ->
    (forall i, (i < N)%nat -> rsum N (fun j => mget P i j * y j) = rho * y i) ->
    (forall i, (i < N)%nat -> rsum N (fun j => mget P i j * (y j - rho * y i) ^ 2) = s2) ->
    stationary N P mu -> rsum N mu = 1 ->
    rsum N (fun i => mu i * y i) = 0 /\ rsum N (fun i => mu i * y i ^ 2) = s2 / (1 - rho ^ 2).
Proof.
  intros N P y mu rho s2 Hr Hsum Hm Hv Hst Hmu.
  assert (Hr1 : rho <> 1) by (intros ->; lra).
  assert (Hsecond : forall i, (i < N)%nat -> rsum N (fun j => mget P i j * y j ^ 2) = rho ^ 2 * y i ^ 2 + s2).
  { intros i Hi. pose proof (Hv i Hi) as E.
    rewrite (rsum_ext N _ (fun j => mget P i j * y j ^ 2
         + ((- (2 * rho * y i)) * (mget P i j * y j) + (rho * y i) ^ 2 * mget P i j))) in E by (intros; ring).
    rewrite !rsum_plus, !rsum_scal, Hm, Hsum in E by assumption. nra. }
  assert (Hpush : forall f, rsum N (fun j => mu j * f j) = rsum N (fun i => mu i * rsum N (fun j => mget P i j * f j))).
  { intro f. rewrite (rsum_ext N _ (fun j => rsum N (fun i => mu i * (mget P i j * f j)))).
    - rewrite rsum_swap. apply rsum_ext; intros i Hi. rewrite rsum_scal. reflexivity.
    - intros j Hj. rewrite <- (Hst j Hj) at 1. rewrite <- rsum_scal_r. apply rsum_ext; intros; ring. }
  split.
  - pose proof (Hpush y) as E.
    rewrite (rsum_ext N (fun i => mu i * rsum N (fun j => mget P i j * y j)) (fun i => rho * (mu i * y i))) in E.
    2:{ intros i Hi. rewrite Hm by assumption. ring. }
    rewrite rsum_scal in E. set (S1 := rsum N (fun i => mu i * y i)) in *.
    assert ((1 - rho) * S1 = 0) by lra. apply Rmult_integral in H. destruct H; [lra|assumption].
  - pose proof (Hpush (fun j => y j ^ 2)) as E. cbv beta in E.
    rewrite (rsum_ext N (fun i => mu i * rsum N (fun j => mget P i j * y j ^ 2))
               (fun i => rho ^ 2 * (mu i * y i ^ 2) + s2 * mu i)) in E.
    2:{ intros i Hi. rewrite Hsecond by assumption. ring. }
    rewrite rsum_plus, !rsum_scal, Hmu in E.
    set (S2 := rsum N (fun i => mu i * y i ^ 2)) in *.
    assert ((1 - rho ^ 2) * S2 = s2) by lra. rewrite <- H. field. lra.
Qed.
