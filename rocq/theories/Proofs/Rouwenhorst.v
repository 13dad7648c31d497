(** Lemmas about the model of rouwenhorst. *)
From Coq Require Import Reals List Arith Lia Lra Bool.
From Verif.Base Require Import Prelude Sums Arrays.
From Verif.Model Require Import Discretization.
Import ListNotations.
Open Scope R_scope.

Lemma rouw_pad_sum0 : forall n dr m0 i w,
    (1 <= n)%nat ->
    rsum n (fun j => rouw_pad n dr 0 m0 i j * w j)
    = if (Nat.leb dr i && Nat.ltb (i - dr) (n - 1))%bool
      then rsum (n - 1) (fun j => m0 (i - dr)%nat j * w j) else 0.
Proof.
  intros n dr m0 i w Hn. unfold rouw_pad.
  destruct (Nat.leb dr i && Nat.ltb (i - dr) (n - 1))%bool eqn:E; simpl.
  - destruct n as [|n]; [lia|]. cbn [rsum].
    replace (S n - 1)%nat with n by lia. rewrite Nat.sub_0_r.
    rewrite Nat.ltb_irrefl. rewrite Rmult_0_l, Rplus_0_r.
    apply rsum_ext; intros j Hj. rewrite Nat.sub_0_r.
    assert (Nat.ltb j n = true) as -> by (apply Nat.ltb_lt; lia). reflexivity.
  - apply rsum_0; intros; ring.
Qed.

Lemma rouw_pad_sum1 : forall n dr m0 i w,
    (1 <= n)%nat ->
    rsum n (fun j => rouw_pad n dr 1 m0 i j * w j)
    = if (Nat.leb dr i && Nat.ltb (i - dr) (n - 1))%bool
      then rsum (n - 1) (fun j => m0 (i - dr)%nat j * w (S j)) else 0.
Proof.
  intros n dr m0 i w Hn. unfold rouw_pad.
  destruct (Nat.leb dr i && Nat.ltb (i - dr) (n - 1))%bool eqn:E; simpl.
  - destruct n as [|n]; [lia|]. rewrite rsum_head.
    replace (S n - 1)%nat with n by lia. simpl. rewrite Rmult_0_l, Rplus_0_l.
    apply rsum_ext; intros j Hj. rewrite Nat.sub_0_r.
    assert (Nat.ltb j n = true) as -> by (apply Nat.ltb_lt; lia). reflexivity.
  - apply rsum_0; intros; ring.
Qed.

(** Any linear functional of a row of the next matrix, from the previous matrix. *)
Lemma rouw_step_sum : forall p q n m0 i w,
    (2 <= n)%nat -> (i < n)%nat ->
    rsum n (fun j => rouw_step p q n m0 i j * w j)
    = (if (Nat.leb 1 i && Nat.ltb i (n - 1))%bool then 1 / 2 else 1) *
      ((if Nat.ltb i (n - 1)
        then p * rsum (n - 1) (fun j => m0 i j * w j)
             + (1 - p) * rsum (n - 1) (fun j => m0 i j * w (S j)) else 0)
       + (if Nat.leb 1 i
          then (1 - q) * rsum (n - 1) (fun j => m0 (i - 1)%nat j * w j)
               + q * rsum (n - 1) (fun j => m0 (i - 1)%nat j * w (S j)) else 0)).
Proof.
  intros p q n m0 i w Hn Hi.
  set (c := if (Nat.leb 1 i && Nat.ltb i (n - 1))%bool then 1 / 2 else 1).
  rewrite (rsum_ext n _ (fun j => c * (p * (rouw_pad n 0 0 m0 i j * w j)
       + (1 - p) * (rouw_pad n 0 1 m0 i j * w j)
       + (1 - q) * (rouw_pad n 1 0 m0 i j * w j)
       + q * (rouw_pad n 1 1 m0 i j * w j)))).
  2:{ intros j Hj. unfold rouw_step, c.
      destruct (Nat.leb 1 i && Nat.ltb i (n - 1))%bool; lra. }
  rewrite rsum_scal. f_equal.
  rewrite !rsum_plus, !rsum_scal.
  rewrite !rouw_pad_sum0, !rouw_pad_sum1 by lia.
  rewrite Nat.sub_0_r. simpl Nat.leb.
  assert ((i - 1 <? n - 1) = (i <? n) || (i =? 0))%nat as Hb.
  { destruct (Nat.ltb_spec (i-1) (n-1)); destruct (Nat.ltb_spec i n);
      destruct (Nat.eqb_spec i 0); simpl; try reflexivity; lia. }
  destruct (Nat.ltb_spec i (n - 1)); simpl andb;
    destruct i as [|i']; simpl; try lra;
      replace (i' - 0 <? n - 1)%nat with true
        by (symmetry; apply Nat.ltb_lt; lia); lra.
Qed.

(** Probability generating function of the rows: row [i] of the n-state matrix is the
    law of (n-1-i) draws of probability 1-p plus i draws of probability q. *)
Definition rouw_pgf (p q z : R) (n i : nat) : R :=
  (p + (1 - p) * z) ^ (n - 1 - i) * (1 - q + q * z) ^ i.

Lemma rouw_step_pgf : forall p q n m0 z,
    (3 <= n)%nat ->
    (forall i, (i < n - 1)%nat ->
       rsum (n - 1) (fun j => m0 i j * z ^ j) = rouw_pgf p q z (n - 1) i) ->
    forall i, (i < n)%nat ->
      rsum n (fun j => rouw_step p q n m0 i j * z ^ j) = rouw_pgf p q z n i.
Proof.
  intros p q n m0 z Hn IH i Hi.
  rewrite (rouw_step_sum p q n m0 i (fun j => z ^ j)) by lia.
  assert (Hs : forall i', rsum (n - 1) (fun j => m0 i' j * z ^ S j)
                     = z * rsum (n - 1) (fun j => m0 i' j * z ^ j)).
  { intro i'. rewrite <- rsum_scal. apply rsum_ext; intros; simpl; ring. }
  rewrite !Hs. unfold rouw_pgf in *.
  assert (Ha : (i < n - 1)%nat ->
     p * rsum (n - 1) (fun j => m0 i j * z ^ j)
     + (1 - p) * (z * rsum (n - 1) (fun j => m0 i j * z ^ j))
     = (p + (1 - p) * z) ^ (n - 1 - i) * (1 - q + q * z) ^ i).
  { intro H. rewrite IH by assumption.
    replace (n - 1 - i)%nat with (S (n - 1 - 1 - i)) by lia. simpl. ring. }
  assert (Hb : (1 <= i)%nat ->
     (1 - q) * rsum (n - 1) (fun j => m0 (i - 1)%nat j * z ^ j)
     + q * (z * rsum (n - 1) (fun j => m0 (i - 1)%nat j * z ^ j))
     = (p + (1 - p) * z) ^ (n - 1 - i) * (1 - q + q * z) ^ i).
  { intro H. rewrite IH by lia.
    replace (n - 1 - 1 - (i - 1))%nat with (n - 1 - i)%nat by lia.
    destruct i as [|i']; [lia|]. replace (S i' - 1)%nat with i' by lia. simpl. ring. }
  destruct (Nat.leb_spec 1 i); destruct (Nat.ltb_spec i (n - 1)); simpl andb; cbv iota.
  - rewrite Ha, Hb by lia. lra.
  - rewrite Hb by lia. lra.
  - rewrite Ha by lia. lra.
  - lia.
Qed.

Lemma rouw_mat_succ : forall p q N,
    (2 <= N)%nat -> rouw_mat p q (S N) = rouw_step p q (S N) (rouw_mat p q N).
Proof.
  intros p q N HN. unfold rouw_mat.
  replace (S N - 2)%nat with (S (N - 2)) by lia. simpl.
  replace (N - 2 + 3)%nat with (S N) by lia. reflexivity.
Qed.

Lemma rouw_mat_pgf : forall p q z N,
    (2 <= N)%nat -> forall i, (i < N)%nat ->
    rsum N (fun j => rouw_mat p q N i j * z ^ j) = rouw_pgf p q z N i.
Proof.
  intros p q z N HN. induction N as [|N IH]; [lia|].
  destruct (Nat.eq_dec N 1) as [->|Hne].
  - intros i Hi. unfold rouw_pgf, rouw_mat.
    destruct i as [|[|i]]; [| |lia]; simpl; ring.
  - intros i Hi. rewrite rouw_mat_succ by lia.
    apply rouw_step_pgf; [lia| |exact Hi].
    intros i' Hi'. replace (S N - 1)%nat with N in * by lia. apply IH; lia.
Qed.

Lemma rouw_pad_nonneg : forall n dr dc m0 i j,
    (forall i j, (i < n - 1)%nat -> (j < n - 1)%nat -> 0 <= m0 i j) ->
    0 <= rouw_pad n dr dc m0 i j.
Proof.
  intros n dr dc m0 i j H. unfold rouw_pad.
  destruct ((dr <=? i)%nat && (i - dr <? n - 1)%nat && (dc <=? j)%nat && (j - dc <? n - 1)%nat)%bool
    eqn:E; [|lra].
  rewrite !andb_true_iff in E. destruct E as [[[_ E1] _] E2].
  apply H; apply Nat.ltb_lt; assumption.
Qed.

Lemma rouw_mat_nonneg : forall p q N,
    0 <= p <= 1 -> 0 <= q <= 1 -> (2 <= N)%nat ->
    forall i j, (i < N)%nat -> (j < N)%nat -> 0 <= rouw_mat p q N i j.
Proof.
  intros p q N Hp Hq HN. induction N as [|N IH]; [lia|].
  destruct (Nat.eq_dec N 1) as [->|Hne].
  - intros i j Hi Hj. unfold rouw_mat; simpl.
    destruct i as [|i]; destruct j as [|j]; simpl; lra.
  - intros i j Hi Hj. rewrite rouw_mat_succ by lia. unfold rouw_step.
    assert (HP : forall dr dc, 0 <= rouw_pad (S N) dr dc (rouw_mat p q N) i j).
    { intros. apply rouw_pad_nonneg. replace (S N - 1)%nat with N by lia.
      intros; apply IH; lia. }
    pose proof (HP 0%nat 0%nat). pose proof (HP 0%nat 1%nat).
    pose proof (HP 1%nat 0%nat). pose proof (HP 1%nat 1%nat).
    assert (0 <= p * rouw_pad (S N) 0 0 (rouw_mat p q N) i j
            + (1 - p) * rouw_pad (S N) 0 1 (rouw_mat p q N) i j
            + (1 - q) * rouw_pad (S N) 1 0 (rouw_mat p q N) i j
            + q * rouw_pad (S N) 1 1 (rouw_mat p q N) i j).
    { repeat apply Rplus_le_le_0_compat; apply Rmult_le_pos; lra. }
    destruct (Nat.leb 1 i && Nat.ltb i (S N - 1))%bool; lra.
Qed.

Lemma rouw_mat_row_sum : forall p q N,
    (2 <= N)%nat -> forall i, (i < N)%nat ->
    rsum N (fun j => rouw_mat p q N i j) = 1.
Proof.
  intros p q N HN i Hi.
  pose proof (rouw_mat_pgf p q 1 N HN i Hi) as H.
  unfold rouw_pgf in H.
  replace (p + (1 - p) * 1) with 1 in H by ring.
  replace (1 - q + q * 1) with 1 in H by ring.
  rewrite !pow1, Rmult_1_r in H. rewrite <- H.
  apply rsum_ext; intros. rewrite pow1; ring.
Qed.

(** First and second moments of the position, by induction on the number of states. *)
Lemma rouw_mat_moments : forall p N,
    (2 <= N)%nat -> forall i, (i < N)%nat ->
    rsum N (fun j => rouw_mat p p N i j * INR j)
    = (INR N - 1) * (1 - p) + (2 * p - 1) * INR i
    /\ rsum N (fun j => rouw_mat p p N i j * (INR j * INR j))
       = ((INR N - 1) * (1 - p) + (2 * p - 1) * INR i) ^ 2 + (INR N - 1) * p * (1 - p).
Proof.
  intros p N HN. induction N as [|N IH]; [lia|].
  destruct (Nat.eq_dec N 1) as [->|Hne].
  - intros i Hi. unfold rouw_mat. destruct i as [|[|i]]; [| |lia]; simpl; split; ring.
  - intros i Hi. assert (HN2 : (2 <= N)%nat) by lia. specialize (IH HN2).
    rewrite rouw_mat_succ by lia.
    rewrite !rouw_step_sum by lia.
    replace (S N - 1)%nat with N by lia.
    set (M := rouw_mat p p N) in *.
    assert (E1 : forall i', (i' < N)%nat ->
       rsum N (fun j => M i' j * INR (S j)) = (INR N - 1) * (1 - p) + (2 * p - 1) * INR i' + 1).
    { intros i' Hi'. rewrite (rsum_ext N _ (fun j => M i' j * INR j + M i' j)).
      2:{ intros; rewrite S_INR; ring. }
      rewrite rsum_plus. destruct (IH i' Hi') as [-> _].
      unfold M; rewrite rouw_mat_row_sum by lia. ring. }
    assert (E2 : forall i', (i' < N)%nat ->
       rsum N (fun j => M i' j * (INR (S j) * INR (S j)))
       = ((INR N - 1) * (1 - p) + (2 * p - 1) * INR i') ^ 2 + (INR N - 1) * p * (1 - p)
         + 2 * ((INR N - 1) * (1 - p) + (2 * p - 1) * INR i') + 1).
    { intros i' Hi'. rewrite (rsum_ext N _ (fun j => (M i' j * (INR j * INR j) + 2 * (M i' j * INR j)) + M i' j)).
      2:{ intros; rewrite S_INR; ring. }
      rewrite !rsum_plus, rsum_scal. destruct (IH i' Hi') as [-> ->].
      unfold M; rewrite rouw_mat_row_sum by lia. ring. }
    rewrite S_INR.
    destruct (Nat.leb_spec 1 i); destruct (Nat.ltb_spec i N); simpl andb; cbv iota.
    + destruct (IH i) as [F1 F2]; [lia|]. destruct (IH (i - 1)%nat) as [F3 F4]; [lia|].
      rewrite F1, F2, F3, F4, !E1, !E2 by lia.
      rewrite minus_INR by lia. simpl INR. split; field.
    + destruct (IH (i - 1)%nat) as [F3 F4]; [lia|].
      rewrite F3, F4, !E1, !E2 by lia. replace i with N by lia.
      rewrite minus_INR by lia. simpl INR. split; field.
    + replace i with 0%nat by lia.
      destruct (IH 0%nat) as [F1 F2]; [lia|].
      rewrite F1, F2, !E1, !E2 by lia. simpl INR. split; field.
    + lia.
Qed.

Lemma rouwenhorst_ok_inv : forall rho sigma N nodes P,
    (2 <= N)%nat -> rouwenhorst rho sigma N = Ok (nodes, P) ->
    nodes = Vec N (linspace (- (sqrt ((INR N - 1) / (1 - rho ^ 2)) * sigma))
                            (sqrt ((INR N - 1) / (1 - rho ^ 2)) * sigma) N)
    /\ P = Mat N N (rouw_mat ((rho + 1) / 2) ((rho + 1) / 2) N)
    /\ 0 < 1 - rho ^ 2.
Proof.
  intros rho sigma N nodes P HN. unfold rouwenhorst.
  destruct (Nat.eqb_spec N 1); [lia|]. destruct (Nat.eqb_spec N 0); [lia|].
  destruct (Req_EM_T (1 - rho ^ 2) 0); [discriminate|].
  destruct (Rlt_dec (1 - rho ^ 2) 0); [discriminate|].
  intro H; injection H as <- <-. repeat split; try reflexivity. lra.
Qed.

Lemma rouwenhorst_succeeds : forall rho sigma N,
    (2 <= N)%nat -> -1 < rho < 1 -> exists nodes P, rouwenhorst rho sigma N = Ok (nodes, P).
Proof.
  intros rho sigma N HN Hr. unfold rouwenhorst.
  destruct (Nat.eqb_spec N 1); [lia|]. destruct (Nat.eqb_spec N 0); [lia|].
  assert (0 < 1 - rho ^ 2) by nra.
  destruct (Req_EM_T (1 - rho ^ 2) 0); [lra|].
  destruct (Rlt_dec (1 - rho ^ 2) 0); [lra|]. eauto.
Qed.

Lemma linspace_sym_closed : forall nu N j,
    (2 <= N)%nat -> linspace (- nu) nu N j = nu * ((2 * INR j - (INR N - 1)) / (INR N - 1)).
Proof.
  intros nu N j HN. unfold linspace. destruct (Nat.eqb_spec N 1); [lia|].
  pose proof (INR_pred_pos N HN). field. lra.
Qed.

Lemma rouw_cond_mean : forall rho nu N i,
    (2 <= N)%nat -> (i < N)%nat ->
    rsum N (fun j => rouw_mat ((rho + 1) / 2) ((rho + 1) / 2) N i j * linspace (- nu) nu N j)
    = rho * linspace (- nu) nu N i.
Proof.
  intros rho nu N i HN Hi. set (p := (rho + 1) / 2).
  pose proof (INR_pred_pos N HN) as Hp.
  rewrite (rsum_ext N _ (fun j => (2 * nu / (INR N - 1)) * (rouw_mat p p N i j * INR j)
                                  + (- nu) * rouw_mat p p N i j)).
  2:{ intros j Hj. rewrite linspace_sym_closed by assumption. field. lra. }
  rewrite rsum_plus, !rsum_scal, rouw_mat_row_sum by assumption.
  destruct (rouw_mat_moments p N HN i Hi) as [-> _].
  rewrite linspace_sym_closed by assumption. unfold p. field. lra.
Qed.

Lemma rouw_cond_second : forall rho nu N i,
    (2 <= N)%nat -> (i < N)%nat ->
    rsum N (fun j => rouw_mat ((rho + 1) / 2) ((rho + 1) / 2) N i j
                     * (linspace (- nu) nu N j - rho * linspace (- nu) nu N i) ^ 2)
    = nu ^ 2 * (1 - rho ^ 2) / (INR N - 1).
Proof.
  intros rho nu N i HN Hi. set (p := (rho + 1) / 2).
  pose proof (INR_pred_pos N HN) as Hp.
  set (d := INR N - 1) in *.
  set (c := rho * linspace (- nu) nu N i).
  rewrite (rsum_ext N _ (fun j =>
     (4 * nu ^ 2 / d ^ 2) * (rouw_mat p p N i j * (INR j * INR j))
     + ((- (4 * nu * (nu + c)) / d) * (rouw_mat p p N i j * INR j)
     + (nu + c) ^ 2 * rouw_mat p p N i j))).
  2:{ intros j Hj. rewrite linspace_sym_closed by assumption. fold d. field. lra. }
  rewrite !rsum_plus, !rsum_scal, rouw_mat_row_sum by assumption.
  destruct (rouw_mat_moments p N HN i Hi) as [-> ->].
  unfold c. rewrite linspace_sym_closed by assumption. fold d. unfold p. field. lra.
Qed.
