(** Assembly of the discretisation lemmas into the statements of P_Discretization. *)
From Coq Require Import Reals List Arith Lia Lra Bool.
From Verif.Base Require Import Prelude Sums Arrays.
From Verif.Model Require Import Discretization.
From Verif.Spec Require Import Markov.
From Verif.Proofs Require Import Rouwenhorst RouwStationary Markov Multidim.
Import ListNotations.
Open Scope R_scope.

Lemma rouwenhorst_stochastic_final :
  forall (rho sigma : R) (N : nat),
    (2 <= N)%nat -> -1 < rho < 1 ->
    exists nodes P, rouwenhorst rho sigma N = Ok (nodes, P)
                    /\ vlen nodes = N /\ stochastic N P.
Proof.
  intros rho sigma N HN Hr.
  destruct (rouwenhorst_succeeds rho sigma N HN Hr) as (nodes & P & E).
  exists nodes, P. split; [exact E|].
  destruct (rouwenhorst_ok_inv rho sigma N nodes P HN E) as (-> & -> & _).
  split; [reflexivity|]. apply rouw_stochastic; [assumption|lra].
Qed.

Lemma rouwenhorst_moments_final :
  forall (rho sigma : R) (N : nat) (nodes : vec) (P : mat),
    (2 <= N)%nat -> rouwenhorst rho sigma N = Ok (nodes, P) ->
    (forall i, (i < N)%nat ->
       next_mean N P i (vget nodes) = rho * vget nodes i /\
       next_mean N P i (fun j => (vget nodes j - rho * vget nodes i) ^ 2) = sigma ^ 2) /\
    (exists step, equally_spaced N (vget nodes) step) /\
    (forall i, (i < N)%nat -> vget nodes (N - 1 - i)%nat = - vget nodes i).
Proof.
  intros rho sigma N nodes P HN E.
  destruct (rouwenhorst_ok_inv rho sigma N nodes P HN E) as (-> & -> & Hr).
  unfold next_mean; cbn [vget mget].
  pose proof (INR_pred_pos N HN) as HNp.
  set (nu := sqrt ((INR N - 1) / (1 - rho ^ 2)) * sigma).
  assert (Hnu : nu ^ 2 * (1 - rho ^ 2) / (INR N - 1) = sigma ^ 2).
  { unfold nu. rewrite Rpow_mult_distr. rewrite <- (Rsqr_pow2 (sqrt _)), Rsqr_sqrt.
    - field. split; lra.
    - apply Rmult_le_pos; [lra|]. left; apply Rinv_0_lt_compat; lra. }
  split; [|split].
  - intros i Hi. split; [apply rouw_cond_mean; assumption|].
    rewrite rouw_cond_second by assumption. exact Hnu.
  - exists ((nu - - nu) / (INR N - 1)). intros i Hi. apply linspace_step; assumption.
  - intros i Hi. rewrite !linspace_sym_closed by assumption.
    rewrite !minus_INR by lia. simpl INR. field. lra.
Qed.

Lemma rouwenhorst_stationary_final :
  forall (rho sigma : R) (N : nat) (nodes : vec) (P : mat),
    (2 <= N)%nat -> rouwenhorst rho sigma N = Ok (nodes, P) ->
    stationary N P (binom_half N) /\ rsum N (binom_half N) = 1 /\
    (forall mu, stationary N P mu -> rsum N mu = 1 ->
       rsum N (fun i => mu i * vget nodes i) = 0 /\
       rsum N (fun i => mu i * vget nodes i ^ 2) = sigma ^ 2 / (1 - rho ^ 2)).
Proof.
  intros rho sigma N nodes P HN E.
  pose proof (rouwenhorst_moments_final rho sigma N nodes P HN E) as (Hmom & _).
  destruct (rouwenhorst_ok_inv rho sigma N nodes P HN E) as (-> & -> & Hr).
  split; [|split].
  - intros j Hj. apply rouw_binomial_stationary; assumption.
  - apply binom_half_sum; lia.
  - intros mu Hmu Hs.
    apply (stationary_variance N (Mat N N (rouw_mat ((rho + 1) / 2) ((rho + 1) / 2) N))); try assumption.
    + intros i Hi. apply rouw_mat_row_sum; assumption.
    + intros i Hi. apply Hmom; assumption.
    + intros i Hi. apply Hmom; assumption.
Qed.

Lemma tauchen_final :
  forall (cdf : R -> R) (N : nat) (mu rho sigma m : R),
    (forall a b, a <= b -> cdf a <= cdf b) -> (forall a, 0 <= cdf a <= 1) ->
    (2 <= N)%nat -> -1 < rho < 1 -> 0 < sigma -> 0 <= m ->
    exists Z P, tauchen cdf N mu rho sigma m = Ok (Z, P) /\
      vlen Z = N /\ stochastic N P /\
      (exists step, 0 <= step /\ equally_spaced N (vget Z) step) /\
      (forall i, (i < N)%nat -> vget Z i + vget Z (N - 1 - i)%nat = 2 * mu) /\
      vget Z (N - 1)%nat = mu + m * sqrt (sigma ^ 2 / (1 - rho ^ 2)) /\
      (forall j k, (j < N)%nat -> (k < N)%nat ->
         mget P j k = cell_prob N (vget Z)
                        (fun x => cdf ((x - ((1 - rho) * mu + rho * vget Z j)) / sigma)) k).
Proof.
  intros cdf N mu rho sigma m Hmono Hb HN Hr Hs Hm.
  destruct (tauchen_succeeds cdf N mu rho sigma m HN Hr ltac:(lra)) as (Z & P & E).
  exists Z, P. split; [exact E|].
  destruct (tauchen_ok_inv cdf N mu rho sigma m Z P E) as (_ & _ & _ & -> & ->).
  cbn [vlen vget mget].
  assert (Hr1 : rho <> 1) by lra.
  pose proof (INR_pred_pos N HN) as HNp.
  pose proof (tauchen_zstep_nonneg N rho sigma m HN Hm) as Hst.
  assert (Hstep : forall i, tauchen_node N mu rho sigma m (S i) - tauchen_node N mu rho sigma m i
                            = tauchen_zstep N rho sigma m).
  { intro i. rewrite !tauchen_node_closed by assumption. rewrite S_INR. ring. }
  split; [reflexivity|]. split; [|split; [|split; [|split]]].
  - unfold stochastic; cbn [nrow ncol mget]. repeat split.
    + intros j k Hj Hk. rewrite tauchen_cells_lemma by assumption.
      apply cell_prob_nonneg; try assumption.
      * intros a b Hab. apply Hmono. apply Rmult_le_compat_r; [left; apply Rinv_0_lt_compat; lra|lra].
      * intro a. apply Hb.
      * intros i Hi. specialize (Hstep i). lra.
    + intros j Hj. rewrite <- (cell_prob_sum N (tauchen_node N mu rho sigma m)
        (fun x => cdf ((x - ((1 - rho) * mu + rho * tauchen_node N mu rho sigma m j)) / sigma))) by lia.
      apply rsum_ext; intros k Hk. apply tauchen_cells_lemma; assumption.
  - exists (tauchen_zstep N rho sigma m). split; [assumption|]. intros i _. apply Hstep.
  - intros i Hi. rewrite !tauchen_node_closed by assumption.
    unfold tauchen_zstep. rewrite !minus_INR by lia. simpl INR. field. lra.
  - rewrite !tauchen_node_closed by assumption.
    unfold tauchen_zstep, tauchen_zmax. rewrite !minus_INR by lia. simpl INR. field. lra.
  - intros j k Hj Hk. apply tauchen_cells_lemma; assumption.
Qed.

Lemma tauchen_one_final : forall cdf mu rho sigma m, exists e, tauchen cdf 1 mu rho sigma m = Err e.
Proof.
  intros. unfold tauchen.
  destruct (Req_EM_T (1 - rho ^ 2) 0); [eauto|].
  destruct (Rlt_dec (1 - rho ^ 2) 0); [eauto|]. simpl. eauto.
Qed.

Lemma tauchen_example :
  exists cdf : R -> R, (forall a b, a <= b -> cdf a <= cdf b) /\ (forall a, 0 <= cdf a <= 1)
    /\ cdf 0 = 1 / 2 /\ exists Z P, tauchen cdf 3 0 (1 / 2) 1 2 = Ok (Z, P).
Proof.
  exists (fun x => Rmin 1 (Rmax 0 ((x + 1) / 2))).
  repeat split.
  - intros a b Hab. unfold Rmin, Rmax. repeat destruct (Rle_dec _ _); lra.
  - unfold Rmin, Rmax. repeat destruct (Rle_dec _ _); lra.
  - unfold Rmin, Rmax. repeat destruct (Rle_dec _ _); lra.
  - unfold Rmin, Rmax. repeat destruct (Rle_dec _ _); lra.
  - apply tauchen_succeeds; [lia|lra|lra].
Qed.

Lemma tensor_markov_stochastic_final :
  forall (ms : list (mat * mat)) n t,
    Forall (fun c => wf_chain c /\ stochastic (nrow (snd c)) (snd c)) ms ->
    tensor_markov ms = Ok (n, t) -> stochastic (size_prod (sizes ms)) t.
Proof.
  intros ms n t Hms H. destruct ms as [|m1 [|m2 ms]]; try discriminate.
  inversion Hms as [|x y [Hw1 Hs1] Hrest]; subst.
  assert (Hwf : Forall wf_chain (m1 :: m2 :: ms)).
  { apply (Forall_impl _ (P := fun c => wf_chain c /\ stochastic (nrow (snd c)) (snd c))); [tauto|exact Hms]. }
  destruct (tensor_markov_joint_lemma (m1 :: m2 :: ms)) as (n' & t' & E & _ & Ht & _);
    [simpl; lia|exact Hwf|].
  rewrite H in E. injection E as <- <-. rewrite <- Ht.
  exact (tensor_fold_stochastic (m2 :: ms) m1 n t Hw1 Hs1 Hrest H).
Qed.

Lemma tensor_markov_errors_final :
  forall ms : list (mat * mat),
    (length ms < 2)%nat \/ (length ms = 2 /\ ~ Forall wf_chain ms)%nat ->
    exists e, tensor_markov ms = Err e.
Proof.
  intros ms [H|[H Hwf]].
  - destruct ms as [|m1 [|m2 ms]]; simpl in H; try lia; simpl; eauto.
  - destruct ms as [|[n1 t1] [|[n2 t2] [|m3 ms]]]; simpl in H; try lia.
    cbn [tensor_markov tensor_markov_fold]. unfold tensor_markov2.
    destruct ((nrow n1 =? nrow t1)%nat && (nrow t1 =? ncol t1)%nat && (nrow n2 =? nrow t2)%nat
              && (nrow t2 =? ncol t2)%nat)%bool eqn:E; [|simpl; eauto].
    exfalso. apply Hwf. rewrite !andb_true_iff, !Nat.eqb_eq in E.
    destruct E as [[[E1 E2] E3] E4]. repeat constructor; assumption.
Qed.

Lemma tensor_markov_example :
  exists n t, tensor_markov [(Mat 2 1 (fun i _ => INR i), Mat 2 2 (fun _ _ => 1 / 2));
                             (Mat 3 1 (fun i _ => INR i), Mat 3 3 (fun _ _ => 1 / 3))] = Ok (n, t)
    /\ stochastic 6 t /\ row n 4 = [1; 1].
Proof.
  set (ms := [_; _]).
  destruct (tensor_markov_joint_lemma ms) as (n & t & E & _ & _ & _ & _ & Hv);
    [simpl; lia|repeat constructor|].
  exists n, t. split; [exact E|]. split.
  - apply (tensor_markov_stochastic_final ms n t); [|exact E].
    repeat constructor; simpl; intros; try lra.
  - rewrite (Hv 4%nat) by (simpl; lia). reflexivity.
Qed.

Lemma multidim_diag_example :
  exists chol L, is_cholesky_upper 2 (patch_zero (Mat 2 2 (fun i j => if Nat.eqb i j then INR i else 0))) L
    /\ chol (patch_zero (Mat 2 2 (fun i j => if Nat.eqb i j then INR i else 0))) = Ok L
    /\ exists nodes P, multidimensional_discretization chol (1 / 2)
          (Mat 2 2 (fun i j => if Nat.eqb i j then INR i else 0)) 3 = Ok (nodes, P).
Proof.
  set (I := Mat 2 2 (fun i j => if Nat.eqb i j then 1 else 0)).
  exists (fun _ => Ok I), I. split; [|split; [reflexivity|]].
  - unfold is_cholesky_upper, I; simpl. repeat split; try reflexivity.
    + intros i j Hi Hj. destruct (Nat.eqb_spec i j); [lia|reflexivity].
    + intros i Hi. rewrite Nat.eqb_refl. lra.
    + intros i j Hi Hj. unfold zero_column; simpl.
      destruct i as [|[|i]]; [| |lia]; destruct j as [|[|j]]; try lia; simpl;
        try match goal with |- context [Req_EM_T ?a ?b] => destruct (Req_EM_T a b) end; simpl; lra.
  - destruct (rouwenhorst_succeeds (1 / 2) 1 3) as (n1 & p1 & E1); [lia|lra|].
    unfold multidimensional_discretization. cbn [bind]. rewrite E1. cbn [bind]. eauto.
Qed.

Lemma multidim_refuted_final :
  exists sigma, sym_posdef 2 sigma /\ mget sigma 0 0 = 1 /\
    (exists L, is_cholesky_upper 2 (patch_zero sigma) L) /\
    forall chol L rho N,
      (2 <= N)%nat -> -1 < rho < 1 ->
      chol (patch_zero sigma) = Ok L -> is_cholesky_upper 2 (patch_zero sigma) L ->
      exists nodes P, multidimensional_discretization chol rho sigma N = Ok (nodes, P)
        /\ forall k, (k < N ^ 2)%nat ->
             next_mean (N ^ 2) P k (fun l => (mget nodes l 0%nat - rho * mget nodes k 0%nat)
                                             * (mget nodes l 0%nat - rho * mget nodes k 0%nat))
             = 5 / 4.
Proof.
  exists corr2. split; [exact corr2_posdef|]. split; [reflexivity|]. split; [|exact corr2_wrong].
  exists (Mat 2 2 (fun i j => match i, j with O, O => 1 | O, _ => 1 / 2 | _, O => 0 | _, _ => sqrt (3 / 4) end)).
  unfold is_cholesky_upper. cbn [nrow ncol mget]. repeat split.
  - intros i j Hi Hj. destruct i as [|i]; [lia|]. destruct j as [|j]; [reflexivity|lia].
  - intros i Hi. destruct i as [|i]; [lra|]. apply sqrt_lt_R0. lra.
  - intros i j Hi Hj. destruct (corr2_patch i j Hi Hj) as [-> _].
    assert (Hs : sqrt (3 / 4) * sqrt (3 / 4) = 3 / 4) by (apply sqrt_sqrt; lra).
    destruct i as [|[|i]]; [| |lia]; destruct j as [|[|j]]; try lia; simpl; nra.
Qed.

Lemma multidim_zero_final :
  exists sigma, sym_posdef 2 sigma /\ mget sigma 0 0 = 2 /\
    (exists L, is_cholesky_upper 2 (patch_zero sigma) L) /\
    forall chol L rho N,
      (2 <= N)%nat -> -1 < rho < 1 -> chol (patch_zero sigma) = Ok L ->
      exists nodes P, multidimensional_discretization chol rho sigma N = Ok (nodes, P)
        /\ forall k, mget nodes k 0%nat = 0.
Proof.
  exists zsum2. split; [exact zsum2_posdef|]. split; [reflexivity|]. split; [|exact zsum2_lost].
  exists (Mat 2 2 (fun i j => match i, j with O, O => 1 | O, _ => -2 | _, O => 0 | _, _ => sqrt 2 end)).
  assert (Hz1 : zero_column zsum2 1 = false).
  { unfold zero_column; simpl. match goal with |- context [Req_EM_T ?a ?b] => destruct (Req_EM_T a b) end; [lra|reflexivity]. }
  unfold is_cholesky_upper. cbn [nrow ncol mget patch_zero]. repeat split.
  - intros i j Hi Hj. destruct i as [|i]; [lia|]. destruct j as [|j]; [reflexivity|lia].
  - intros i Hi. destruct i as [|i]; [lra|]. apply sqrt_lt_R0. lra.
  - intros i j Hi Hj.
    assert (Hs : sqrt 2 * sqrt 2 = 2) by (apply sqrt_sqrt; lra).
    destruct i as [|[|i]]; [| |lia]; destruct j as [|[|j]]; try lia; cbn [Nat.eqb andb];
      rewrite ?zsum2_zero, ?Hz1; simpl; nra.
Qed.
