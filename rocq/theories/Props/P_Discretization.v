(** Property theorems C01-C04 and C06: discretisation of AR(1)/VAR(1) processes. *)
From Coq Require Import Reals List Arith Lia Lra.
From Verif.Base Require Import Prelude Sums Arrays.
From Verif.Model Require Import Discretization.
From Verif.Spec Require Import Markov.
From Verif.Proofs Require Import Rouwenhorst RouwStationary Markov Multidim DiscretizationFinal.
Import ListNotations.
Open Scope R_scope.

(** C01.  For every N >= 2 and |rho| < 1, rouwenhorst succeeds and its matrix is an
    N x N probability matrix. *)
Theorem C01_rouwenhorst_stochastic :
  forall (rho sigma : R) (N : nat),
    (2 <= N)%nat -> -1 < rho < 1 ->
    exists nodes P, rouwenhorst rho sigma N = Ok (nodes, P)
                    /\ vlen nodes = N /\ stochastic N P.
Proof. exact rouwenhorst_stochastic_final. Qed.
Print Assumptions C01_rouwenhorst_stochastic.

(** C02.  Whatever rouwenhorst returns has exactly the AR(1) conditional mean and
    conditional variance at every node; its nodes are equally spaced and symmetric. *)
Theorem C02_rouwenhorst_conditional_moments :
  forall (rho sigma : R) (N : nat) (nodes : vec) (P : mat),
    (2 <= N)%nat -> rouwenhorst rho sigma N = Ok (nodes, P) ->
    (forall i, (i < N)%nat ->
       next_mean N P i (vget nodes) = rho * vget nodes i /\
       next_mean N P i (fun j => (vget nodes j - rho * vget nodes i) ^ 2) = sigma ^ 2) /\
    (exists step, equally_spaced N (vget nodes) step) /\
    (forall i, (i < N)%nat -> vget nodes (N - 1 - i)%nat = - vget nodes i).
Proof. exact rouwenhorst_moments_final. Qed.
Print Assumptions C02_rouwenhorst_conditional_moments.

(** C02 (long run).  The binomial law is stationary, and every stationary law of the
    chain has mean zero and the variance sigma^2/(1-rho^2) of the AR(1). *)
Theorem C02_rouwenhorst_stationary_law :
  forall (rho sigma : R) (N : nat) (nodes : vec) (P : mat),
    (2 <= N)%nat -> rouwenhorst rho sigma N = Ok (nodes, P) ->
    stationary N P (binom_half N) /\ rsum N (binom_half N) = 1 /\
    (forall mu, stationary N P mu -> rsum N mu = 1 ->
       rsum N (fun i => mu i * vget nodes i) = 0 /\
       rsum N (fun i => mu i * vget nodes i ^ 2) = sigma ^ 2 / (1 - rho ^ 2)).
Proof. exact rouwenhorst_stationary_final. Qed.
Print Assumptions C02_rouwenhorst_stationary_law.

(** The hypotheses are met, e.g. by the 5-state chain of persistence 9/10. *)
Example C01_C02_nonvacuous :
  exists nodes P, rouwenhorst (9 / 10) (1 / 10) 5 = Ok (nodes, P) /\ stochastic 5 P.
Proof.
  destruct (C01_rouwenhorst_stochastic (9 / 10) (1 / 10) 5) as (n & P & H & _ & HP);
    [lia|lra|]. exists n, P. split; assumption.
Qed.

(** C03.  tauchen, for any distribution function: the nodes are equally spaced and
    centred at mu; each transition probability is the probability, under the AR(1)
    law with conditional mean (1-rho) mu + rho z_j, of the cell around the node; the
    matrix is a probability matrix. *)
Theorem C03_tauchen_stochastic :
  forall (cdf : R -> R) (N : nat) (mu rho sigma m : R),
    (forall a b, a <= b -> cdf a <= cdf b) -> (forall a, 0 <= cdf a <= 1) ->
    (2 <= N)%nat -> -1 < rho < 1 -> 0 < sigma -> 0 <= m ->
    exists Z P, tauchen cdf N mu rho sigma m = Ok (Z, P) /\
      vlen Z = N /\ stochastic N P /\
      (exists step, 0 <= step /\ equally_spaced N (vget Z) step) /\
      (forall i, (i < N)%nat -> vget Z i + vget Z (N - 1 - i)%nat = 2 * mu) /\
      vget Z (N - 1)%nat = mu + m * sqrt (sigma ^ 2 / (1 - rho ^ 2)) /\
      (forall j k, (j < N)%nat -> (k < N)%nat ->
         mget P j k = cell_prob N (vget Z)
                        (fun x => cdf ((x - ((1 - rho) * mu + rho * vget Z j)) / sigma)) k).
Proof. exact tauchen_final. Qed.
Print Assumptions C03_tauchen_stochastic.

(** One node is not supported: the code divides by zero. *)
Theorem C03_tauchen_single_node :
  forall cdf mu rho sigma m, exists e, tauchen cdf 1 mu rho sigma m = Err e.
Proof. exact tauchen_one_final. Qed.
Print Assumptions C03_tauchen_single_node.

(** A distribution function satisfying the hypotheses. *)
Example C03_nonvacuous :
  exists cdf : R -> R, (forall a b, a <= b -> cdf a <= cdf b) /\ (forall a, 0 <= cdf a <= 1)
    /\ cdf 0 = 1 / 2 /\ exists Z P, tauchen cdf 3 0 (1 / 2) 1 2 = Ok (Z, P).
Proof. exact tauchen_example. Qed.

(** C04.  Products of two or more chains: joint states enumerate the component states
    with the last component varying fastest, transition probabilities multiply, node
    rows concatenate. *)
Theorem C04_tensor_markov_joint :
  forall ms : list (mat * mat),
    (2 <= length ms)%nat -> Forall wf_chain ms ->
    exists n t, tensor_markov ms = Ok (n, t)
      /\ nrow n = size_prod (sizes ms) /\ nrow t = size_prod (sizes ms)
      /\ ncol t = size_prod (sizes ms)
      /\ (forall k l, (k < size_prod (sizes ms))%nat -> (l < size_prod (sizes ms))%nat ->
            mget t k l = joint_prob (map snd ms) (components (sizes ms) k) (components (sizes ms) l))
      /\ (forall k, (k < size_prod (sizes ms))%nat ->
            row n k = joint_values (map fst ms) (components (sizes ms) k)).
Proof. exact tensor_markov_joint_lemma. Qed.
Print Assumptions C04_tensor_markov_joint.

Theorem C04_tensor_markov_stochastic :
  forall (ms : list (mat * mat)) n t,
    Forall (fun c => wf_chain c /\ stochastic (nrow (snd c)) (snd c)) ms ->
    tensor_markov ms = Ok (n, t) -> stochastic (size_prod (sizes ms)) t.
Proof. exact tensor_markov_stochastic_final. Qed.
Print Assumptions C04_tensor_markov_stochastic.

(** Fewer than two chains, or a chain whose arrays have inconsistent shapes: an
    exception. *)
Theorem C04_tensor_markov_errors :
  forall ms : list (mat * mat),
    (length ms < 2)%nat \/ (length ms = 2 /\ ~ Forall wf_chain ms)%nat ->
    exists e, tensor_markov ms = Err e.
Proof. exact tensor_markov_errors_final. Qed.
Print Assumptions C04_tensor_markov_errors.

Example C04_nonvacuous :
  exists n t, tensor_markov [(Mat 2 1 (fun i _ => INR i), Mat 2 2 (fun _ _ => 1 / 2));
                             (Mat 3 1 (fun i _ => INR i), Mat 3 3 (fun _ _ => 1 / 3))] = Ok (n, t)
    /\ stochastic 6 t /\ row n 4 = [1; 1].
Proof. exact tensor_markov_example. Qed.

(** C06, positive part: for a diagonal covariance (null variances allowed) the chain
    built for a VAR(1) with scalar persistence has conditional mean rho*x and
    conditional covariance exactly sigma, from every joint node, in any dimension. *)
Theorem C06_diagonal_covariance :
  forall chol rho sigma N nodes P L,
    (2 <= N)%nat ->
    let d := ncol sigma in
    nrow sigma = d ->
    (forall i j, (i < d)%nat -> (j < d)%nat -> i <> j -> mget sigma i j = 0) ->
    (forall i, (i < d)%nat -> 0 <= mget sigma i i) ->
    chol (patch_zero sigma) = Ok L -> is_cholesky_upper d (patch_zero sigma) L ->
    multidimensional_discretization chol rho sigma N = Ok (nodes, P) ->
    stochastic (N ^ d) P /\
    forall k, (k < N ^ d)%nat ->
      (forall i, (i < d)%nat ->
         next_mean (N ^ d) P k (fun l => mget nodes l i) = rho * mget nodes k i) /\
      (forall i i', (i < d)%nat -> (i' < d)%nat ->
         next_mean (N ^ d) P k (fun l => (mget nodes l i - rho * mget nodes k i)
                                         * (mget nodes l i' - rho * mget nodes k i'))
         = mget sigma i i').
Proof. exact multidim_diagonal. Qed.
Print Assumptions C06_diagonal_covariance.

Example C06_diagonal_nonvacuous :
  exists chol L, is_cholesky_upper 2 (patch_zero (Mat 2 2 (fun i j => if Nat.eqb i j then INR i else 0))) L
    /\ chol (patch_zero (Mat 2 2 (fun i j => if Nat.eqb i j then INR i else 0))) = Ok L
    /\ exists nodes P, multidimensional_discretization chol (1 / 2)
          (Mat 2 2 (fun i j => if Nat.eqb i j then INR i else 0)) 3 = Ok (nodes, P).
Proof. exact multidim_diag_example. Qed.

(** C06 is false in general: for the positive definite covariance [[1,1/2],[1/2,1]],
    with scipy's (upper) Cholesky factor, the conditional variance of the first
    variable is 5/4 instead of 1, for every N, every rho and from every node. *)
Theorem C06_correlated_covariance_refuted :
  exists sigma, sym_posdef 2 sigma /\ mget sigma 0 0 = 1 /\
    (exists L, is_cholesky_upper 2 (patch_zero sigma) L) /\
    forall chol L rho N,
      (2 <= N)%nat -> -1 < rho < 1 ->
      chol (patch_zero sigma) = Ok L -> is_cholesky_upper 2 (patch_zero sigma) L ->
      exists nodes P, multidimensional_discretization chol rho sigma N = Ok (nodes, P)
        /\ forall k, (k < N ^ 2)%nat ->
             next_mean (N ^ 2) P k (fun l => (mget nodes l 0%nat - rho * mget nodes k 0%nat)
                                             * (mget nodes l 0%nat - rho * mget nodes k 0%nat))
             = 5 / 4.
Proof. exact multidim_refuted_final. Qed.
Print Assumptions C06_correlated_covariance_refuted.

(** A second defect: a positive definite covariance with a column that sums to zero is
    taken for a degenerate shock, whose values are all reset to zero. *)
Theorem C06_zero_sum_column_refuted :
  exists sigma, sym_posdef 2 sigma /\ mget sigma 0 0 = 2 /\
    (exists L, is_cholesky_upper 2 (patch_zero sigma) L) /\
    forall chol L rho N,
      (2 <= N)%nat -> -1 < rho < 1 -> chol (patch_zero sigma) = Ok L ->
      exists nodes P, multidimensional_discretization chol rho sigma N = Ok (nodes, P)
        /\ forall k, mget nodes k 0%nat = 0.
Proof. exact multidim_zero_final. Qed.
Print Assumptions C06_zero_sum_column_refuted.
