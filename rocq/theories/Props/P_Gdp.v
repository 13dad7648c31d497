(** Properties of discretisation on a grid (dolo/numeric/processes.py, discretize(to="gdp")): C113. *)
From Coq Require Import String Reals List Arith Bool Lia Lra.
From Verif Require Import Base.Prelude Base.Sums Base.Arrays Model.Discretization Model.Grids Model.Distributions
  Model.Processes Model.GdpDiscretization Spec.Law Proofs.GdpProofs.
Import ListNotations.
Open Scope R_scope.

(** C113. No autoregressive process can be discretised on a grid: whatever the process, the number of points and the
    quadrature, the call raises. *)
Theorem C113_never_refuted : forall herm chol,
  (forall p N, is_err (var1_discretize_gdp herm chol p N)) /\
  (forall rho sigma mu N, ar1_discretize_gdp herm chol rho sigma mu N = Err (ExcGeneric "Not implemented.")).
Proof. intros herm chol. exact (conj (var1_never herm chol) (ar1_never herm chol)). Qed.
Print Assumptions C113_never_refuted.

(** The scalar stationary case, which the code means to handle, stops on the construction of the grid. *)
Theorem C113_type_error : forall herm chol p N h,
  nrow (v_Sigma p) = 1%nat -> ncol (v_Sigma p) = 1%nat -> nrow (v_rho p) = 1%nat -> ncol (v_rho p) = 1%nat ->
  0 <= mget (v_Sigma p) 0 0 -> mget (v_rho p) 0 0 ^ 2 < 1 -> herm 5%nat = Ok h ->
  var1_discretize_gdp herm chol p N = Err ExcType.
Proof. exact var1_type_error. Qed.
Print Assumptions C113_type_error.

(** With a grid that can be built, the arrays are N equally spaced points on plus and minus 5/2 standard deviations,
    and from each of them a law of total weight 1, of mean ρ x and of variance Σ. *)
Theorem C113_arrays_partial : forall herm chol grid_call m Sigma N x w,
  nrow Sigma = 1%nat -> ncol Sigma = 1%nat -> nrow m = 1%nat -> ncol m = 1%nat ->
  0 <= mget Sigma 0 0 -> mget m 0 0 ^ 2 < 1 -> herm 5%nat = Ok (x, w) -> exact_rule 5 x w ->
  (forall a b n, grid_call a b n = Ok tt) ->
  exists g, discretize_gdp_with herm chol grid_call (PyMat m) Sigma N = Ok g /\
    nrow (gdp_nodes g) = N /\ gdp_k g = 5%nat /\
    (forall i, (i < N)%nat ->
       mget (gdp_nodes g) i 0 =
         linspace (- (5 / 2 * sqrt (mget Sigma 0 0 / (1 - mget m 0 0 ^ 2)))) (5 / 2 * sqrt (mget Sigma 0 0 / (1 - mget m 0 0 ^ 2))) N i /\
       rsum 5 (gdp_iweights g i) = 1 /\
       mean 5 (gdp_iweights g i) (gdp_inodes g i) 0 = mget m 0 0 * mget (gdp_nodes g) i 0 /\
       cov 5 (gdp_iweights g i) (gdp_inodes g i) 0 0 = mget Sigma 0 0).
Proof. exact gdp_moments_sd. Qed.
Print Assumptions C113_arrays_partial.

(** The mean μ of the process is not read: were the grid built, no conditional mean would be that of a process with μ
    different from 0. *)
Theorem C113_mean_refuted : forall herm chol grid_call p N x w,
  nrow (v_Sigma p) = 1%nat -> ncol (v_Sigma p) = 1%nat -> nrow (v_rho p) = 1%nat -> ncol (v_rho p) = 1%nat ->
  0 <= mget (v_Sigma p) 0 0 -> mget (v_rho p) 0 0 ^ 2 < 1 -> herm 5%nat = Ok (x, w) -> exact_rule 5 x w ->
  (forall a b n, grid_call a b n = Ok tt) -> vget (v_mu p) 0 <> 0 ->
  exists g, discretize_gdp_with herm chol grid_call (PyMat (v_rho p)) (v_Sigma p) N = Ok g /\
    forall i, (i < N)%nat ->
      mean 5 (gdp_iweights g i) (gdp_inodes g i) 0 <>
      vget (v_mu p) 0 + mget (v_rho p) 0 0 * (mget (gdp_nodes g) i 0 - vget (v_mu p) 0).
Proof. exact gdp_wrong_mean. Qed.
Print Assumptions C113_mean_refuted.

Example C113_rule : exact_rule 5 padded_x padded_w.
Proof. exact padded_exact. Qed.
Example C113_example : exists g,
  discretize_gdp_with (fun _ => Ok (padded_x, padded_w)) (fun _ => Err ExcLinAlg) (fun _ _ _ => Ok tt)
    (PyMat (Mat 1 1 (fun _ _ => 1 / 2))) (Mat 1 1 (fun _ _ => 1)) 3 = Ok g.
Proof.
  destruct (C113_arrays_partial (fun _ => Ok (padded_x, padded_w)) (fun _ => Err ExcLinAlg) (fun _ _ _ => Ok tt)
    (Mat 1 1 (fun _ _ => 1 / 2)) (Mat 1 1 (fun _ _ => 1)) 3 padded_x padded_w) as (g & H & _);
    try reflexivity; cbn [mget]; try lra; [exact padded_exact|]. exists g. exact H.
Qed.
