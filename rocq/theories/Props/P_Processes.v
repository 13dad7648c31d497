(** Property theorems C05 (constant processes), C13-C16, C75, C81-C84: exogenous processes. *)
From Coq Require Import String Reals List Arith Lia Lra.
From Verif.Base Require Import Prelude Sums Arrays.
From Verif.Spec Require Import Product Law Markov.
From Verif.Model Require Import Discretization Grids Distributions Processes.
From Verif.Proofs Require Import LawProofs LawFinal ProcessProofs.
Import ListNotations.
Open Scope R_scope.

(** C05, constant processes: as a law or as a chain with any number of nodes, the expectation
    of [f] of the next value is [f] of the constant. *)
Theorem C05_constant_process :
  forall mu N f,
    (exists d, constant_iid mu = Ok d /\ iid_integrate d f = f (row (Mat 1 (vlen mu) (fun _ j => vget mu j)) 0)) /\
    stochastic N (snd (constant_mc mu N)) /\
    (forall i, (i < N)%nat ->
       expect N (mget (snd (constant_mc mu N)) i) (row (fst (constant_mc mu N))) f
       = f (row (Mat 1 (vlen mu) (fun _ j => vget mu j)) 0)).
Proof. exact constant_process_spec. Qed.
Print Assumptions C05_constant_process.

(* ------------------------------------------------------------------ *)
(** ** C13, C14: simulated chains *)

Theorem C13_valid_indices :
  forall P k N T i0 rand,
    stochastic k P -> (1 <= T)%nat -> (forall n, (n < N)%nat -> (i0 n < k)%nat) ->
    (forall m, 0 <= rand m < 1) ->
    exists out, simulate_mc_indices (cumsum_rows P) N T i0 rand = Ok out /\
      forall n, (n < N)%nat -> out 0%nat n = i0 n /\ forall t, (t < T)%nat -> (out t n < k)%nat.
Proof. exact simulate_valid. Qed.
Print Assumptions C13_valid_indices.

(** The simulated values are nodes of the chain; without randomness the chain stays where it
    started. *)
Theorem C13_simulated_values :
  forall c k N T i0 rand,
    nrow (fst c) = k -> stochastic k (snd c) -> (1 <= T)%nat -> (i0 < k)%nat ->
    (forall m, 0 <= rand m < 1) ->
    (exists sim, mc_simulate c N T i0 true rand = Ok sim /\
       forall n t, (n < N)%nat -> (t < T)%nat ->
         sim 0%nat n = row (fst c) i0 /\ exists j, (j < k)%nat /\ sim t n = row (fst c) j) /\
    (exists sim, mc_simulate c N T i0 false rand = Ok sim /\
       forall n t, (n < N)%nat -> (t < T)%nat -> sim t n = row (fst c) i0).
Proof. exact mc_simulate_spec. Qed.
Print Assumptions C13_simulated_values.

(** Rows must sum to one: with rows summing to 0.8 the index 2 of a two-state chain appears. *)
Theorem C13_defective_rows_refuted :
  exists P rand out, (forall i j, 0 <= mget P i j) /\ nrow P = 2%nat /\ ncol P = 2%nat /\
    (forall m, 0 <= rand m < 1) /\
    simulate_mc_indices (cumsum_rows P) 1 2 (fun _ => 0%nat) rand = Ok out /\ out 1%nat 0%nat = 2%nat.
Proof. exact simulate_defective_row. Qed.
Print Assumptions C13_defective_rows_refuted.

(** Asking simulate_markov_chain for the values always raises. *)
Theorem C13_return_values_refuted :
  forall values P N T i0 rand, exists e, simulate_markov_chain values P N T i0 true rand = Err e.
Proof. exact simulate_values_raises. Qed.
Print Assumptions C13_return_values_refuted.

(** C14: the draw [u] selects [j] exactly when it falls in the interval of length [p j] that
    starts at [p 0 + ... + p (j-1)]. *)
Theorem C14_choice_interval :
  forall p n u j,
    (forall k, (k < n)%nat -> 0 <= p k) -> 0 <= u -> (j < n)%nat ->
    (choice u n (fun k => rsum (S k) p) = j <-> rsum j p <= u < rsum (S j) p).
Proof. exact choice_interval. Qed.
Print Assumptions C14_choice_interval.

(** Along a trajectory, every step uses its own draw, and goes to a state of positive
    probability selected that way. *)
Theorem C14_transitions :
  forall P k N T i0 rand out,
    stochastic k P -> (1 <= T)%nat -> (forall n, (n < N)%nat -> (i0 n < k)%nat) ->
    (forall m, 0 <= rand m < 1) ->
    simulate_mc_indices (cumsum_rows P) N T i0 rand = Ok out ->
    forall n t, (n < N)%nat -> (S t < T)%nat ->
      let i := out t n in let j := out (S t) n in let u := rand (n * (T - 1) + t)%nat in
      rsum j (mget P i) <= u < rsum j (mget P i) + mget P i j /\ 0 < mget P i j.
Proof. exact simulate_transitions. Qed.
Print Assumptions C14_transitions.

Example C14_example :
  exists out, simulate_mc_indices (cumsum_rows (Mat 2 2 (fun i j => if Nat.eqb i j then 3 / 4 else 1 / 4))) 2 3
                (fun n => n) (fun m => if Nat.even m then 1 / 10 else 9 / 10) = Ok out /\
    forall n, (n < 2)%nat -> out 0%nat n = n /\ forall t, (t < 3)%nat -> (out t n < 2)%nat.
Proof.
  apply C13_valid_indices; try lia.
  - split; [reflexivity|]. split; [reflexivity|]. split; cbn [mget].
    + intros i j _ _. destruct (Nat.eqb i j); lra.
    + intros i Hi. cbn [rsum]. destruct i as [|[|i]]; cbn [Nat.eqb]; try lra. lia.
  - intros m. destruct (Nat.even m); lra.
Qed.

(* ------------------------------------------------------------------ *)
(** ** C15: impulse responses *)

Theorem C15_var1_response :
  forall p T impulse,
    (1 <= T)%nat -> ncol (v_rho p) = nrow (v_Sigma p) ->
    exists irf, var1_response p T impulse = Ok irf /\
      (forall j, irf 0%nat j = vget (v_mu p) j + vget impulse j) /\
      (forall t j, (S t < T)%nat ->
         irf (S t) j - vget (v_mu p) j
         = rsum (nrow (v_Sigma p)) (fun l => mget (v_rho p) j l * (irf t l - vget (v_mu p) l))).
Proof. exact var1_response_spec. Qed.
Print Assumptions C15_var1_response.

(** With a scalar persistence: geometric decay. *)
Theorem C15_geometric :
  forall r Sigma mu T impulse,
    (1 <= T)%nat ->
    exists irf, var1_response (make_var1 (RhoScalar r) Sigma (Some mu)) T impulse = Ok irf /\
      forall t j, (t < T)%nat -> (j < nrow Sigma)%nat -> irf t j = vget mu j + r ^ t * vget impulse j.
Proof. exact var1_response_scalar. Qed.
Print Assumptions C15_geometric.

(** With a vector of persistences: each component decays at its own rate. *)
Theorem C15_own_rates :
  forall v Sigma mu T impulse,
    (1 <= T)%nat -> vlen v = nrow Sigma ->
    exists irf, var1_response (make_var1 (RhoVector v) Sigma (Some mu)) T impulse = Ok irf /\
      forall t j, (t < T)%nat -> (j < nrow Sigma)%nat -> irf t j = vget mu j + vget v j ^ t * vget impulse j.
Proof. exact var1_response_vector. Qed.
Print Assumptions C15_own_rates.

(** AR1.response raises for every argument. *)
Theorem C15_ar1_refuted :
  forall rho sigma mu T impulse, exists e, ar1_response rho sigma mu T impulse = Err e.
Proof. exact ar1_response_raises. Qed.
Print Assumptions C15_ar1_refuted.

(** For i.i.d. processes the impulse occurs at date one only. *)
Theorem C15_iid_response :
  forall d T impulse, (1 <= T)%nat ->
    exists irf, iid_response d T impulse = Ok irf /\
      (forall j, irf 0%nat j = 0) /\ (forall j, irf 1%nat j = vget impulse j) /\
      (forall t j, (2 <= t)%nat -> irf t j = 0).
Proof. exact iid_response_spec. Qed.
Print Assumptions C15_iid_response.

Example C15_example :
  exists irf, var1_response (make_var1 (RhoScalar (1 / 2)) (Mat 1 1 (fun _ _ => 1)) (Some (Vec 1 (fun _ => 3)))) 5
                (Vec 1 (fun _ => 8)) = Ok irf /\ irf 3%nat 0%nat = 4.
Proof.
  destruct (C15_geometric (1 / 2) (Mat 1 1 (fun _ _ => 1)) (Vec 1 (fun _ => 3)) 5 (Vec 1 (fun _ => 8)) ltac:(lia))
    as (irf & E & H). exists irf. split; [exact E|]. rewrite H by (simpl; lia). simpl. field.
Qed.

(** C81: a simulated VAR(1) follows the VAR around its mean, from the mean plus [m0]
    (not from [m0]). *)
Theorem C81_var1_simulate_partial :
  forall p T m0 innov,
    (1 <= T)%nat ->
    exists sim, var1_simulate p T (Some m0) true innov = Ok sim /\
      (forall j, sim 0%nat j = vget m0 j + vget (v_mu p) j) /\
      (forall t j, (S t < T)%nat ->
         sim (S t) j - vget (v_mu p) j
         = rsum (nrow (v_Sigma p)) (fun l => mget (v_rho p) j l * (sim t l - vget (v_mu p) l)) + innov (S t) j).
Proof. exact var1_simulate_spec. Qed.
Print Assumptions C81_var1_simulate_partial.

(** With a mean of one, a path simulated from 0 starts at 1. *)
Theorem C81_start_refuted :
  exists p m0 sim, var1_simulate p 2 (Some m0) true (fun _ _ => 0) = Ok sim /\
    vlen m0 = 1%nat /\ nrow (v_Sigma p) = 1%nat /\ sim 0%nat 0%nat <> vget m0 0.
Proof. exact var1_simulate_start. Qed.
Print Assumptions C81_start_refuted.

(** Non-stochastic paths and AR1 paths are never returned. *)
Theorem C81_never_returns_refuted :
  forall p rho sigma mu T m0 s innov,
    (exists e, var1_simulate p T m0 false innov = Err e) /\
    (exists e, ar1_simulate rho sigma mu T m0 s innov = Err e).
Proof. exact simulate_never_returns. Qed.
Print Assumptions C81_never_returns_refuted.

(* ------------------------------------------------------------------ *)
(** ** C82-C84: discretised VAR(1) and AR(1) *)

(** Diagonal covariance: the chain has the conditional mean and covariance of the VAR. *)
Theorem C82_var1_chain :
  forall chol r Sigma mu N c L,
    (2 <= N)%nat ->
    let d := ncol Sigma in
    nrow Sigma = d ->
    (forall i j, (i < d)%nat -> (j < d)%nat -> i <> j -> mget Sigma i j = 0) ->
    (forall i, (i < d)%nat -> 0 <= mget Sigma i i) ->
    (1 <= d)%nat ->
    chol (patch_zero Sigma) = Ok L -> is_cholesky_upper d (patch_zero Sigma) L ->
    var1_discretize_mc chol (make_var1 (RhoScalar r) Sigma (Some mu)) N = Ok c ->
    stochastic (N ^ d) (snd c) /\
    forall k, (k < N ^ d)%nat ->
      (forall i, (i < d)%nat ->
         next_mean (N ^ d) (snd c) k (fun l => mget (fst c) l i)
         = vget mu i + r * (mget (fst c) k i - vget mu i)) /\
      (forall i j, (i < d)%nat -> (j < d)%nat ->
         let m i := vget mu i + r * (mget (fst c) k i - vget mu i) in
         next_mean (N ^ d) (snd c) k (fun l => (mget (fst c) l i - m i) * (mget (fst c) l j - m j)) = mget Sigma i j).
Proof. exact var1_discretize_moments. Qed.
Print Assumptions C82_var1_chain.

(** C83: persistences (9/10, 1/10) are accepted although the documentation requires a scalar;
    the chain's second component has persistence 9/10. *)
Theorem C83_nonscalar_persistence_refuted :
  forall chol L N,
    (2 <= N)%nat -> chol (patch_zero eye2) = Ok L -> is_cholesky_upper 2 (patch_zero eye2) L ->
    exists c, var1_discretize_mc chol
        (make_var1 (RhoVector (Vec 2 (fun i => if Nat.eqb i 0 then 9 / 10 else 1 / 10))) eye2 None) N = Ok c /\
      (forall k, (k < N ^ 2)%nat ->
         next_mean (N ^ 2) (snd c) k (fun l => mget (fst c) l 1%nat) = 9 / 10 * mget (fst c) k 1%nat) /\
      ~ (forall k, (k < N ^ 2)%nat ->
         next_mean (N ^ 2) (snd c) k (fun l => mget (fst c) l 1%nat) = 1 / 10 * mget (fst c) k 1%nat).
Proof. exact var1_nonscalar. Qed.
Print Assumptions C83_nonscalar_persistence_refuted.

(** C84: for AR1(rho, sigma, mu) the conditional variance of the chain is sigma (sigma is the
    variance, although UNormal and LogNormal use the same letter for the standard deviation). *)
Theorem C84_ar1_chain :
  forall chol r sigma mu N c L,
    (2 <= N)%nat -> 0 < sigma ->
    chol (patch_zero (Mat 1 1 (fun _ _ => sigma))) = Ok L ->
    is_cholesky_upper 1 (patch_zero (Mat 1 1 (fun _ _ => sigma))) L ->
    ar1_discretize_mc chol r sigma mu N = Ok c ->
    forall k, (k < N)%nat ->
      next_mean N (snd c) k (fun l => mget (fst c) l 0%nat) = mu + r * (mget (fst c) k 0%nat - mu) /\
      next_mean N (snd c) k (fun l => (mget (fst c) l 0%nat - (mu + r * (mget (fst c) k 0%nat - mu))) ^ 2) = sigma.
Proof. exact ar1_variance. Qed.
Print Assumptions C84_ar1_chain.

(** The hypotheses of C82-C84 are satisfiable. *)
Example C83_example :
  exists L c, is_cholesky_upper 2 (patch_zero eye2) L /\
    var1_discretize_mc (fun _ => Ok L)
        (make_var1 (RhoVector (Vec 2 (fun i => if Nat.eqb i 0 then 9 / 10 else 1 / 10))) eye2 None) 3 = Ok c.
Proof.
  assert (HC : is_cholesky_upper 2 (patch_zero eye2) eye2).
  { destruct eye2_patch as [_ Hp]. split; [reflexivity|]. split; [reflexivity|]. split; [|split].
    - intros i j Hi Hj. cbn. destruct (Nat.eqb_spec i j); [lia|reflexivity].
    - intros i Hi. cbn. rewrite Nat.eqb_refl. lra.
    - intros i j Hi Hj. rewrite Hp by assumption. cbn [rsum eye2 mget].
      destruct i as [|[|i]], j as [|[|j]]; try lia; simpl; ring. }
  destruct (C83_nonscalar_persistence_refuted (fun _ => Ok eye2) eye2 3 ltac:(lia) eq_refl HC) as (c & E & _).
  exists eye2, c. split; assumption.
Qed.

Example C84_example :
  exists L c, is_cholesky_upper 1 (patch_zero (Mat 1 1 (fun _ _ => 4))) L /\
    ar1_discretize_mc (fun _ => Ok L) (1 / 2) 4 1 3 = Ok c.
Proof. exact ar1_example. Qed.

(* ------------------------------------------------------------------ *)
(** ** C16: products of processes *)

(** A Markov chain or continuous factor (or an explicit request) gives the product chain of
    the factors' chains, when there are at least two factors. *)
Theorem C16_markov_product :
  forall (K : Type) (l : list (process K)) o cs to,
    (to = Some ToMc \/ to = None /\ exists p, In p l /\ (is_markov_chain p = true \/ is_continuous p = true)) ->
    length (kwargs_of l o) = length l ->
    Forall2 (fun pk c => p_discretize (fst pk) ToMc (snd pk) = Ok (DChain c)) (combine l (kwargs_of l o)) cs ->
    (2 <= length l)%nat -> Forall wf_chain cs ->
    exists n t, product_discretize l to o = Ok (DChain (n, t)) /\
      nrow t = size_prod (sizes cs) /\
      (forall k m, (k < size_prod (sizes cs))%nat -> (m < size_prod (sizes cs))%nat ->
          mget t k m = joint_prob (map snd cs) (components (sizes cs) k) (components (sizes cs) m)) /\
      (forall k, (k < size_prod (sizes cs))%nat ->
          row n k = joint_values (map fst cs) (components (sizes cs) k)).
Proof. intros K. exact product_markov. Qed.
Print Assumptions C16_markov_product.

(** All factors i.i.d. (or an explicit request): the product law; a single factor gives the
    factor's own law. *)
Theorem C16_iid_product :
  forall (K : Type) (l : list (process K)) o ds to,
    (to = Some ToIid \/
     to = None /\ forall p, In p l -> is_iid p = true /\ is_markov_chain p = false /\ is_continuous p = false) ->
    length (kwargs_of l o) = length l ->
    Forall2 (fun pk d => p_discretize (fst pk) ToIid (snd pk) = Ok (DIid d)) (combine l (kwargs_of l o)) ds ->
    l <> [] -> Forall good_iid ds -> Forall (fun d => 0 < iid_n d)%nat ds ->
    exists d, product_discretize l to o = Ok (DIid d) /\ product_iid ds = Ok d /\
      (forall d1, ds = [d1] -> iid_n d = iid_n d1 /\
         forall i, (i < iid_n d1)%nat -> iid_point d i = iid_point d1 i /\ iid_weight d i = iid_weight d1 i).
Proof. intros K. exact product_iid_kind. Qed.
Print Assumptions C16_iid_product.

(** In the remaining cases, no general discretised product exists: an exception. *)
Theorem C16_otherwise :
  forall (K : Type) (l : list (process K)) o,
    (forall p, In p l -> is_markov_chain p = false /\ is_continuous p = false) ->
    (exists p, In p l /\ is_iid p = false) ->
    exists e, product_discretize l None o = Err e.
Proof. intros K. exact product_otherwise. Qed.
Print Assumptions C16_otherwise.

(** A product with a single Markov (or continuous) factor raises instead of behaving like
    this factor. *)
Theorem C16_single_markov_refuted :
  forall (K : Type) (p : process K) o to,
    to = Some ToMc \/ to = None /\ (is_markov_chain p = true \/ is_continuous p = true) ->
    exists e, product_discretize [p] to o = Err e.
Proof. intros K. exact product_single_markov. Qed.
Print Assumptions C16_single_markov_refuted.

Definition C16_mc (n : nat) : process unit :=
  {| is_markov_chain := true; is_continuous := false; is_iid := false;
     p_discretize := fun t _ => Ok (DChain (Mat n 1 (fun i _ => INR i), Mat n n (fun _ _ => 1 / INR n))) |}.
Example C16_example :
  exists n t, product_discretize [C16_mc 2; C16_mc 3] None (OptDict tt) = Ok (DChain (n, t)) /\ nrow t = 6%nat.
Proof.
  destruct (C16_markov_product unit [C16_mc 2; C16_mc 3] (OptDict tt)
    [(Mat 2 1 (fun i _ => INR i), Mat 2 2 (fun _ _ => 1 / INR 2)); (Mat 3 1 (fun i _ => INR i), Mat 3 3 (fun _ _ => 1 / INR 3))]
    None) as (n & t & E & H & _).
  - right. split; [reflexivity|]. exists (C16_mc 2). split; [left; reflexivity|left; reflexivity].
  - reflexivity.
  - repeat constructor.
  - simpl; lia.
  - repeat constructor.
  - exists n, t. split; [exact E|exact H].
Qed.

(* ------------------------------------------------------------------ *)
(** ** C75: iterating over successors *)

Theorem C75_items :
  forall p eps i w x,
    In (w, x) (iteritems p eps i) <->
    exists j, (j < dp_n p i)%nat /\ w = dp_weight p i j /\ x = dp_node p i j /\ eps < w.
Proof. exact iteritems_in. Qed.
Print Assumptions C75_items.

Theorem C75_error :
  forall p eps i f B,
    0 <= eps -> (forall j, (j < dp_n p i)%nat -> 0 <= dp_weight p i j) ->
    (forall j, (j < dp_n p i)%nat -> Rabs (f (dp_node p i j)) <= B) ->
    Rabs (rsum (dp_n p i) (fun j => dp_weight p i j * f (dp_node p i j))
          - lsum (map (fun wx => fst wx * f (snd wx)) (iteritems p eps i)))
    <= INR (dp_n p i) * (eps * B).
Proof. exact iteritems_error. Qed.
Print Assumptions C75_error.

(** Converting a chain to a general discretised process does not change the successors. *)
Theorem C75_chain_as_gdp :
  forall c, nrow (fst c) = ncol (snd c) ->
    forall eps i, iteritems (gdp_process (mc_to_gdp c)) eps i = iteritems (mc_process c) eps i.
Proof. exact mc_gdp_same. Qed.
Print Assumptions C75_chain_as_gdp.

Example C75_example :
  iteritems (mc_process (Mat 2 1 (fun i _ => INR i), Mat 2 2 (fun i j => if Nat.eqb i j then 1 else 0)))
    default_eps 1 = [(1, [1])].
Proof.
  unfold iteritems, default_eps. cbn [mc_process dp_n dp_weight dp_node snd fst ncol seq flat_map mget Nat.eqb app].
  assert (0 < 1 / 10 ^ 16 < 1).
  { split; [apply Rdiv_lt_0_compat; [lra|apply pow_lt; lra]|]. apply Rmult_lt_reg_r with (10 ^ 16); [apply pow_lt; lra|].
    unfold Rdiv. rewrite Rmult_1_l, Rinv_l by (apply pow_nonzero; lra). rewrite Rmult_1_l. apply Rlt_pow_R1; [lra|lia]. }
  destruct (Rlt_dec _ 0); [lra|]. destruct (Rlt_dec _ 1); [|lra]. reflexivity.
Qed.
