(** Property theorems C05, C07, C08, C70-C72, C76, C78-C80: discrete laws and
    discretisation of continuous laws. *)
From Coq Require Import String Reals List Arith Lia Lra.
From Verif.Base Require Import Prelude Sums Arrays Ext.
From Verif.Spec Require Import Product Law Markov.
From Verif.Model Require Import Discretization Grids Distributions.
From Verif.Proofs Require Import LawProofs LawFinal NormalProofs HermiteThree.
Import ListNotations.
Open Scope R_scope.

(* ------------------------------------------------------------------ *)
(** ** C05: i.i.d. laws as Markov chains *)

(** A well-formed law (as many weights as points) converts to a chain on the same points;
    from every node, the expectation of any function of the next node is the law's. *)
Theorem C05_iid_to_mc :
  forall d, good_iid d ->
    exists P, iid_to_mc d = Ok (iid_points d, P) /\
      (forall i f, (i < iid_n d)%nat ->
         expect (ncol P) (mget P i) (row (iid_points d)) f = iid_integrate d f) /\
      (is_law (iid_n d) (iid_weight d) -> stochastic (iid_n d) P).
Proof. exact to_mc_expect. Qed.
Print Assumptions C05_iid_to_mc.

(** Laws built by the constructors are well formed. *)
Theorem C05_constructors :
  (forall p w d, finite_distribution p w = Ok d -> d = Finite p w /\ good_iid d) /\
  (forall p, (0 < nrow p)%nat -> is_law (iid_n (Equi p)) (iid_weight (Equi p))) /\
  (forall pi, exists d, bernouilli_iid pi = Ok d /\
     iid_n d = 2%nat /\ iid_point d 0 = [0] /\ iid_point d 1 = [1] /\ iid_weight d 0 = 1 - pi /\ iid_weight d 1 = pi).
Proof. exact (conj finite_good (conj equi_law bernouilli_spec)). Qed.
Print Assumptions C05_constructors.

Example C05_example :
  exists d P, bernouilli_iid (1 / 4) = Ok d /\ iid_to_mc d = Ok (iid_points d, P) /\
    stochastic 2 P /\ mget P 0%nat 1%nat = 1 / 4.
Proof.
  destruct (bernouilli_spec (1 / 4)) as (d & E & Hn & _ & _ & W0 & W1).
  destruct (finite_good _ _ _ E) as [Ed G].
  destruct (to_mc_spec d G) as (P & EP & _ & _ & HP).
  destruct (C05_iid_to_mc d G) as (P' & EP' & _ & HS).
  assert (P' = P) by congruence. subst P'.
  exists d, P. split; [exact E|]. split; [exact EP|]. split.
  - rewrite <- Hn. apply HS. rewrite Hn. split.
    + intros [|[|i]] Hi; [lra|lra|lia].
    + cbn [rsum]. lra.
  - rewrite HP. exact W1.
Qed.

(* ------------------------------------------------------------------ *)
(** ** C07, C80: moments of discretised normal laws

    [herm] is the one-dimensional rule, [chol] numpy.linalg.cholesky; the theorems hold for
    every rule exact up to degree two and every lower Cholesky factor. *)

(** One dimension: mean and variance are those of the law. *)
Theorem C07_univariate :
  forall herm chol (self : normal) o x w,
    nrow (nm_Sigma self) = 1%nat -> ncol (nm_Sigma self) = 1%nat ->
    0 <= mget (nm_Sigma self) 0 0 ->
    herm o = Ok (x, w) -> exact_rule o x w ->
    exists d, normal_discretize herm chol self [o] = Ok (d, self) /\
      iid_n d = o /\ rsum (iid_n d) (iid_weight d) = 1 /\
      mean (iid_n d) (iid_weight d) (iid_point d) 0 = vget (nm_Mu self) 0 /\
      cov (iid_n d) (iid_weight d) (iid_point d) 0 0 = mget (nm_Sigma self) 0 0.
Proof. exact normal_uni. Qed.
Print Assumptions C07_univariate.

Theorem C07_unormal :
  forall herm chol sigma mu o x w,
    0 <= sigma -> herm o = Ok (x, w) -> exact_rule o x w ->
    exists d, unormal_gh herm chol sigma mu o = Ok d /\
      iid_n d = o /\ rsum (iid_n d) (iid_weight d) = 1 /\
      mean (iid_n d) (iid_weight d) (iid_point d) 0 = mu /\
      cov (iid_n d) (iid_weight d) (iid_point d) 0 0 = sigma ^ 2.
Proof. exact unormal_moments. Qed.
Print Assumptions C07_unormal.

(** Two or more dimensions: the mean is twice the requested one (except for the components
    whose column of Sigma sums to zero); so the property holds only for a null mean. *)
Theorem C07_multivariate_mean_refuted :
  forall herm chol (self : normal) orders C,
    (2 <= length orders)%nat ->
    Forall (fun o => exists h, herm o = Ok h) orders ->
    Forall (fun o => forall h, herm o = Ok h -> exact_rule o (fst h) (snd h)) orders ->
    length orders = nrow (nm_Sigma self) -> ncol (nm_Sigma self) = nrow (nm_Sigma self) ->
    vlen (nm_Mu self) = nrow (nm_Sigma self) ->
    chol (patch_in_place (nm_Sigma self)) = Ok C ->
    is_cholesky_lower (nrow (nm_Sigma self)) (patch_in_place (nm_Sigma self)) C ->
    exists d self', normal_discretize herm chol self orders = Ok (d, self') /\
      (forall i, (i < nrow (nm_Sigma self))%nat -> zero_column (nm_Sigma self) i = false ->
         mean (iid_n d) (iid_weight d) (iid_point d) i = 2 * vget (nm_Mu self) i /\
         (mean (iid_n d) (iid_weight d) (iid_point d) i = vget (nm_Mu self) i <-> vget (nm_Mu self) i = 0)).
Proof. exact normal_mean_doubled. Qed.
Print Assumptions C07_multivariate_mean_refuted.

(** The covariance, on the other hand, is right: C80. *)
Theorem C80_multivariate_covariance :
  forall herm chol (self : normal) orders C,
    (2 <= length orders)%nat ->
    Forall (fun o => exists h, herm o = Ok h) orders ->
    Forall (fun o => forall h, herm o = Ok h -> exact_rule o (fst h) (snd h)) orders ->
    length orders = nrow (nm_Sigma self) -> ncol (nm_Sigma self) = nrow (nm_Sigma self) ->
    vlen (nm_Mu self) = nrow (nm_Sigma self) ->
    chol (patch_in_place (nm_Sigma self)) = Ok C ->
    is_cholesky_lower (nrow (nm_Sigma self)) (patch_in_place (nm_Sigma self)) C ->
    exists d self', normal_discretize herm chol self orders = Ok (d, self') /\
      iid_n d = prodn orders /\ rsum (iid_n d) (iid_weight d) = 1 /\
      (forall i j, (i < nrow (nm_Sigma self))%nat -> (j < nrow (nm_Sigma self))%nat ->
         cov (iid_n d) (iid_weight d) (iid_point d) i j
         = if (zero_column (nm_Sigma self) i || zero_column (nm_Sigma self) j)%bool then 0
           else mget (nm_Sigma self) i j).
Proof. exact normal_covariance. Qed.
Print Assumptions C80_multivariate_covariance.

(** A correlated law with a nonzero mean: the hypotheses hold and the mean is wrong. *)
Example C07_example :
  exists herm chol self d self',
    nm_Sigma self = Mat 2 2 (fun i j => if Nat.eqb i j then (if Nat.eqb i 0 then 1 else 5) else 2) /\
    normal_discretize herm chol self [2%nat; 2%nat] = Ok (d, self') /\
    vget (nm_Mu self) 1 = 3 /\
    mean (iid_n d) (iid_weight d) (iid_point d) 1 = 6 /\
    cov (iid_n d) (iid_weight d) (iid_point d) 0 1 = 2.
Proof. exact normal_example. Qed.

(* ------------------------------------------------------------------ *)
(** ** C08: discretising has no side effect *)

(** True when no column of Sigma sums to zero, hence repeated calls agree; and always true in
    one dimension. *)
Theorem C08_nondegenerate :
  forall herm chol (self self' : normal) orders d,
    (forall i, (i < ncol (nm_Sigma self))%nat ->
       rsum (nrow (nm_Sigma self)) (fun k => mget (nm_Sigma self) k i) <> 0) ->
    normal_discretize herm chol self orders = Ok (d, self') ->
    self' = self /\ normal_discretize herm chol self' orders = Ok (d, self').
Proof. exact normal_pure_twice. Qed.
Print Assumptions C08_nondegenerate.

Theorem C08_univariate :
  forall herm chol (self self' : normal) o d,
    normal_discretize herm chol self [o] = Ok (d, self') -> self' = self.
Proof. exact normal_uni_pure. Qed.
Print Assumptions C08_univariate.

(** False for variances (1, 0): the first call returns a law whose second component is
    constant and overwrites the object's covariance; the second call returns a law whose
    second component has variance one. *)
Theorem C08_degenerate_refuted :
  forall herm chol C,
    (exists h, herm 2%nat = Ok h) -> (forall h, herm 2%nat = Ok h -> exact_rule 2 (fst h) (snd h)) ->
    (forall A, (forall i j, (i < 2)%nat -> (j < 2)%nat -> mget A i j = if Nat.eqb i j then 1 else 0) -> chol A = Ok C) ->
    nrow C = 2%nat -> ncol C = 2%nat ->
    (forall i j, (i < 2)%nat -> (j < 2)%nat -> mget C i j = if Nat.eqb i j then 1 else 0) ->
    exists d1 s1 d2 s2,
      normal_discretize herm chol degenerate [2%nat; 2%nat] = Ok (d1, s1) /\
      normal_discretize herm chol s1 [2%nat; 2%nat] = Ok (d2, s2) /\
      mget (nm_Sigma degenerate) 1 1 = 0 /\ mget (nm_Sigma s1) 1 1 = 1 /\
      cov (iid_n d1) (iid_weight d1) (iid_point d1) 1 1 = 0 /\
      cov (iid_n d2) (iid_weight d2) (iid_point d2) 1 1 = 1.
Proof. exact degenerate_twice. Qed.
Print Assumptions C08_degenerate_refuted.

Example C08_example :
  exists d1 s1 d2 s2,
    normal_discretize (fun _ => Ok (rule2_x, rule2_w))
      (fun _ => Ok (Mat 2 2 (fun i j => if Nat.eqb i j then 1 else 0))) degenerate [2%nat; 2%nat] = Ok (d1, s1) /\
    normal_discretize (fun _ => Ok (rule2_x, rule2_w))
      (fun _ => Ok (Mat 2 2 (fun i j => if Nat.eqb i j then 1 else 0))) s1 [2%nat; 2%nat] = Ok (d2, s2) /\ s1 <> degenerate.
Proof.
  destruct (C08_degenerate_refuted (fun _ => Ok (rule2_x, rule2_w))
     (fun _ => Ok (Mat 2 2 (fun i j => if Nat.eqb i j then 1 else 0)))
     (Mat 2 2 (fun i j => if Nat.eqb i j then 1 else 0))) as (d1 & s1 & d2 & s2 & E1 & E2 & H0 & H1 & _); try reflexivity.
  - eexists; reflexivity.
  - intros h Hh. injection Hh as <-. exact rule2_exact.
  - exists d1, s1, d2, s2. split; [exact E1|]. split; [exact E2|]. intros ->. lra.
Qed.

(* ------------------------------------------------------------------ *)
(** ** C70: products and mixtures *)

(** Points of a product are concatenations, weights are products, in C order. *)
Theorem C70_product_points :
  forall iids, iids <> [] -> Forall good_iid iids -> Forall (fun d => 0 < iid_n d)%nat iids ->
    exists p, product_iid iids = Ok p /\ good_iid p /\
      iid_n p = prodn (map iid_n iids) /\
      forall idx, valid_index (map iid_n iids) idx ->
        iid_point p (rank (map iid_n iids) idx) = concat (points_at (map iid_point iids) idx) /\
        iid_weight p (rank (map iid_n iids) idx) = prodl (map iid_weight iids) idx.
Proof. exact product_points. Qed.
Print Assumptions C70_product_points.

(** Independence: a product of functions integrates to the product of the integrals. *)
Theorem C70_product_integrate :
  forall iids fs F p,
    iids <> [] -> Forall good_iid iids -> Forall (fun d => 0 < iid_n d)%nat iids ->
    product_iid iids = Ok p -> length fs = length iids ->
    (forall xs, blocks_of (map iid_d iids) xs -> F (concat xs) = prod_values fs xs) ->
    iid_integrate p F = prod_all (map (fun df => iid_integrate (fst df) (snd df)) (combine iids fs)).
Proof. exact product_integrate. Qed.
Print Assumptions C70_product_integrate.

Theorem C70_product_law :
  forall iids p,
    iids <> [] -> Forall good_iid iids -> Forall (fun d => is_law (iid_n d) (iid_weight d)) iids ->
    product_iid iids = Ok p -> is_law (iid_n p) (iid_weight p).
Proof. exact product_law. Qed.
Print Assumptions C70_product_law.

Example C70_product_example :
  exists p, product_iid [Equi (Mat 2 1 (fun i _ => INR i)); Equi (Mat 3 2 (fun i j => INR (i + j)))] = Ok p /\
    iid_n p = 6%nat /\ is_law (iid_n p) (iid_weight p).
Proof.
  assert (H0 : [Equi (Mat 2 1 (fun i _ => INR i)); Equi (Mat 3 2 (fun i j => INR (i + j)))] <> []) by discriminate.
  assert (H1 : Forall good_iid [Equi (Mat 2 1 (fun i _ => INR i)); Equi (Mat 3 2 (fun i j => INR (i + j)))])
    by (repeat constructor).
  destruct (C70_product_points _ H0 H1) as (p & E & G & N & _).
  - repeat constructor; unfold iid_n; simpl; lia.
  - exists p. split; [exact E|]. split; [exact N|]. apply (C70_product_law _ _ H0 H1); [|exact E].
    repeat (apply Forall_cons || apply Forall_nil); apply equi_law; simpl; lia.
Qed.

(** A mixture integrates to the index-weighted sum of the components' integrals, where
    component [k] is the one stored under the key "k", [k] being a position... *)
Theorem C70_mixture_by_position :
  forall index dists m,
    mixture_iid index dists = Ok m ->
    exists ds, length ds = iid_n index /\
      (forall k, (k < iid_n index)%nat -> dists k = Ok (nth k ds (Equi (Mat 0 0 (fun _ _ => 0))))) /\
      forall f, iid_integrate m f
        = rsum (iid_n index) (fun k => iid_weight index k * iid_integrate (nth k ds (Equi (Mat 0 0 (fun _ _ => 0)))) f).
Proof. exact mixture_integrate. Qed.
Print Assumptions C70_mixture_by_position.

(** ... so the mixture selects by the value of the index when that value is the position... *)
Theorem C70_mixture_by_value :
  forall index dists (comp : R -> iid) m,
    mixture_iid index dists = Ok m ->
    (forall k, (k < iid_n index)%nat -> dists k = Ok (comp (INR k))) ->
    (forall k, (k < iid_n index)%nat -> iid_point index k = [INR k]) ->
    forall f, iid_integrate m f = iid_integrate index (fun v => iid_integrate (comp (coord 0 v)) f).
Proof. exact mixture_by_value. Qed.
Print Assumptions C70_mixture_by_value.

(** ... and is wrong otherwise: an index with values (1, 0) of weights (1/4, 3/4) and point
    masses as components. *)
Theorem C70_mixture_order_refuted :
    exists m, mixture_iid index10 (fun i => Ok (point_mass (INR i))) = Ok m /\
      is_law (iid_n index10) (iid_weight index10) /\
      iid_integrate m (coord 0) = 3 / 4 /\
      iid_integrate index10 (fun v => iid_integrate (point_mass (coord 0 v)) (coord 0)) = 1 / 4.
Proof. exact mixture_wrong. Qed.
Print Assumptions C70_mixture_order_refuted.

(** C78: draws from a mixture whose components are keyed by strings are always zero. *)
Theorem C78_mixture_draw_refuted :
  forall inds draws n j,
    (forall kd, In kd draws -> exists s, fst kd = KeyStr s) ->
    mixture_draw inds draws n j = 0.
Proof. exact mixture_draw_zero. Qed.
Print Assumptions C78_mixture_draw_refuted.

Example C78_example :
  mixture_draw (fun _ => 0) [(KeyStr "0", fun _ _ => 7); (KeyStr "1", fun _ _ => 9)] 0 0 = 0.
Proof. apply C78_mixture_draw_refuted. intros kd [<-|[<-|[]]]; eexists; reflexivity. Qed.

(* ------------------------------------------------------------------ *)
(** ** C71: equiprobable discretisation *)

(** Median points: equal weights, and the point of cell [i] splits the probability of
    [[i/N, (i+1)/N]] in two equal halves. *)
Theorem C71_median_points :
  forall (F ppf : R -> R) N,
    (1 <= N)%nat -> (forall p, 0 < p < 1 -> F (ppf p) = p) ->
    exists d, discretize_ep ppf N MPmedian = Ok d /\ iid_n d = N /\
      (forall i, (i < N)%nat -> iid_weight d i = 1 / INR N) /\
      forall i, (i < N)%nat -> exists q, iid_point d i = [q] /\
        F q - INR i / INR N = 1 / 2 * (1 / INR N) /\ INR (S i) / INR N - F q = 1 / 2 * (1 / INR N).
Proof. exact ep_spec. Qed.
Print Assumptions C71_median_points.

(** Left, right and middle points of the cells. *)
Theorem C71_other_points :
  forall ppf N, (1 <= N)%nat ->
    (exists d, discretize_ep ppf N MPleft = Ok d /\ iid_n d = N /\
       forall i, (i < N)%nat -> iid_point d i = [ppf (INR i / INR N)] /\ iid_weight d i = 1 / INR N) /\
    (exists d, discretize_ep ppf N MPright = Ok d /\ iid_n d = N /\
       forall i, (i < N)%nat -> iid_point d i = [ppf (INR (S i) / INR N)] /\ iid_weight d i = 1 / INR N) /\
    (exists d, discretize_ep ppf N MPmiddle = Ok d /\ iid_n d = N /\
       forall i, (i < N)%nat -> iid_point d i = [(ppf (INR i / INR N) + ppf (INR (S i) / INR N)) / 2] /\ iid_weight d i = 1 / INR N).
Proof. exact ep_points. Qed.
Print Assumptions C71_other_points.

Theorem C71_points_ordered :
  forall (ppf : R -> R) N mp d,
    (1 <= N)%nat -> (forall p q, 0 <= p <= 1 -> 0 <= q <= 1 -> p <= q -> ppf p <= ppf q) ->
    discretize_ep ppf N mp = Ok d ->
    forall i j, (i <= j)%nat -> (j < N)%nat -> coord 0 (iid_point d i) <= coord 0 (iid_point d j).
Proof. exact ep_monotone. Qed.
Print Assumptions C71_points_ordered.

(** The median points of a uniform law have its mean. *)
Theorem C71_uniform_mean :
  forall a b N d, (1 <= N)%nat ->
    discretize_ep (uniform_ppf a b) N MPmedian = Ok d ->
    mean (iid_n d) (iid_weight d) (iid_point d) 0 = (a + b) / 2.
Proof. exact uniform_mean. Qed.
Print Assumptions C71_uniform_mean.

(** to="mc" ignores N, the method and the mass points: always five nodes. *)
Theorem C71_mc_ignores_N_refuted :
  forall ppf gh N N' m m' mp mp',
    univariate_discretize ppf gh ToMc N m mp = univariate_discretize ppf gh ToMc N' m' mp' /\
    exists c, univariate_discretize ppf gh ToMc N m mp = Ok (DChain c) /\ nrow (fst c) = 5%nat.
Proof. exact mc_ignores_N. Qed.
Print Assumptions C71_mc_ignores_N_refuted.

Example C71_example :
  exists F : R -> R, (forall p, 0 < p < 1 -> F (uniform_ppf 2 4 p) = p) /\
    exists d, discretize_ep (uniform_ppf 2 4) 4 MPmedian = Ok d /\
      mean (iid_n d) (iid_weight d) (iid_point d) 0 = 3.
Proof.
  exists (fun x => (x - 2) / 2). split; [intros; unfold uniform_ppf; field|].
  eexists. split; [reflexivity|].
  rewrite (C71_uniform_mean 2 4 4); [lra|lia|reflexivity].
Qed.

(** C72: Bernouilli draws: a fair source gives mean 1/2 whatever the parameter. *)
Theorem C72_bernouilli_draw_refuted :
  (forall pi pi' rng N, bernouilli_draw pi rng N = bernouilli_draw pi' rng N) /\
  (forall pi, expect 2 (fun _ => 1 / 2) (fun s => [mget (bernouilli_draw pi (fun _ => s) 1) 0 0]) (coord 0) = 1 / 2).
Proof. exact (conj bernouilli_draw_ignores bernouilli_draw_law). Qed.
Print Assumptions C72_bernouilli_draw_refuted.

(* ------------------------------------------------------------------ *)
(** ** C76: symmetry of Gauss-Hermite rules *)

Theorem C76_symmetric_nodes :
  forall n x w, hermgauss n = Ok (x, w) ->
    forall i, (i < n)%nat -> (n - 1 - i <> i)%nat ->
      x (n - 1 - i)%nat = - x i /\ w (n - 1 - i)%nat = w i.
Proof. exact hermgauss_symmetric. Qed.
Print Assumptions C76_symmetric_nodes.

Theorem C76_odd_moments_even_order :
  forall n x w k, hermgauss n = Ok (x, w) -> Nat.even n = true ->
    rsum n (fun i => w i * x i ^ (2 * k + 1)) = 0.
Proof. exact odd_moments_even_order. Qed.
Print Assumptions C76_odd_moments_even_order.

(** For odd orders only the contribution of the computed middle node remains (it is an
    approximate root of an odd polynomial; the code does not set it to zero). *)
Theorem C76_odd_moments_odd_order_partial :
  forall h x w k, hermgauss (2 * h + 1) = Ok (x, w) ->
    rsum (2 * h + 1) (fun i => w i * x i ^ (2 * k + 1)) = w h * x h ^ (2 * k + 1).
Proof. exact odd_moments_odd_order. Qed.
Print Assumptions C76_odd_moments_odd_order_partial.

(** The iteration does converge, e.g. for order one, to the exact rule. *)
Example C76_example : exists x w, hermgauss 1 = Ok (x, w) /\ x 0%nat = 0 /\ w 0%nat = sqrt PI.
Proof. exact hermgauss_1. Qed.

(** Order three: the iterations converge, within 1e-14 of the roots -sqrt(3/2), 0 and sqrt(3/2). *)
Theorem C76_order_three : exists x w, hermgauss 3 = Ok (x, w) /\ x 0%nat = - x 2%nat /\ w 0%nat = w 2%nat /\
  Rabs (x 2%nat - sqrt (3 / 2)) < 1 / 10 ^ 14 /\ Rabs (x 1%nat) < 1 / 10 ^ 14 /\ x 1%nat <> 0 /\
  forall i, (i < 3)%nat -> 0 < w i.
Proof. exact hermgauss_3. Qed.
Print Assumptions C76_order_three.

(** Refuted: "the rules of all orders have no odd moments".  Those of the rule of order three are tiny, and none is zero. *)
Theorem C76_odd_order_refuted : exists x w, hermgauss 3 = Ok (x, w) /\ forall k,
  rsum 3 (fun i => w i * x i ^ (2 * k + 1)) <> 0.
Proof. exact order_3_moments. Qed.
Print Assumptions C76_odd_order_refuted.

(* ------------------------------------------------------------------ *)
(** ** C79: truncated laws *)

(** Quantiles of a truncation are those of the conditional law and lie within the bounds. *)
Theorem C79_truncated_quantiles :
  forall F ppf lb ub p,
    (forall q, 0 < q < 1 -> F (ppf q) = q) ->
    0 <= trunc_min_q F lb -> trunc_max_q F ub <= 1 -> trunc_min_q F lb < trunc_max_q F ub ->
    0 < p < 1 ->
    (F (trunc_ppf F ppf lb ub p) - trunc_min_q F lb) / (trunc_max_q F ub - trunc_min_q F lb) = p.
Proof. exact trunc_quantile. Qed.
Print Assumptions C79_truncated_quantiles.

Theorem C79_within_bounds :
  forall F ppf lb ub p,
    (forall q, 0 < q < 1 -> F (ppf q) = q) -> (forall x y, x < y -> F x <= F y) ->
    0 <= trunc_min_q F lb -> trunc_max_q F ub <= 1 -> trunc_min_q F lb < trunc_max_q F ub ->
    0 < p < 1 ->
    ext_le_l lb (trunc_ppf F ppf lb ub p) /\ ext_le_r (trunc_ppf F ppf lb ub p) ub.
Proof. exact trunc_in_bounds. Qed.
Print Assumptions C79_within_bounds.

Example C79_example :
  let F := fun x => Rmax 0 (Rmin 1 x) in
  trunc_min_q F (Fin (1 / 4)) = 1 / 4 /\ trunc_max_q F PInf = 1 /\
  trunc_ppf F (fun q => q) (Fin (1 / 4)) PInf (1 / 2) = 5 / 8.
Proof.
  cbn [trunc_min_q trunc_max_q]. assert (E : Rmax 0 (Rmin 1 (1 / 4)) = 1 / 4).
  { rewrite Rmin_right by lra. apply Rmax_right. lra. }
  split; [exact E|]. split; [reflexivity|].
  unfold trunc_ppf. cbn [trunc_min_q trunc_max_q]. rewrite E. lra.
Qed.
