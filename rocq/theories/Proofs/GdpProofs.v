(** Discretisation on a grid. *)
From Coq Require Import String Reals List Arith Bool Lia Lra.
From Verif.Base Require Import Prelude Sums Arrays.
From Verif.Spec Require Import Law.
From Verif.Model Require Import Discretization Grids Distributions Processes GdpDiscretization.
From Verif.Proofs Require Import NormalProofs.
Import ListNotations.
Open Scope R_scope.

Section G.
  Variable herm : nat -> res ((nat -> R) * (nat -> R)).
  Variable chol : mat -> res mat.

  Lemma var1_never : forall p N, is_err (var1_discretize_gdp herm chol p N).
  Proof.
    intros p N. unfold var1_discretize_gdp, discretize_gdp_with.
    destruct (negb _); [eexists; reflexivity|]. destruct (negb _); [eexists; reflexivity|].
    destruct (gauss_hermite_nodes herm chol [5%nat] (v_Sigma p) _) as [[[eps w] S]|e]; [|exists e; reflexivity]. cbn [bind].
    destruct (Rlt_dec _ 1); eexists; reflexivity.
  Qed.
  Lemma ar1_never : forall rho sigma mu N, ar1_discretize_gdp herm chol rho sigma mu N = Err not_implemented.
  Proof. intros. reflexivity. Qed.
  Lemma var1_type_error : forall p N h,
    nrow (v_Sigma p) = 1%nat -> ncol (v_Sigma p) = 1%nat -> nrow (v_rho p) = 1%nat -> ncol (v_rho p) = 1%nat ->
    0 <= mget (v_Sigma p) 0 0 -> mget (v_rho p) 0 0 ^ 2 < 1 -> herm 5%nat = Ok h ->
    var1_discretize_gdp herm chol p N = Err ExcType.
  Proof.
    intros p N h H1 H2 H3 H4 H5 H6 H7. unfold var1_discretize_gdp, discretize_gdp_with, square_one, gauss_hermite_nodes, herms.
    rewrite H1, H2, H3, H4, H7. cbn [Nat.eqb negb andb bind]. destruct (Rlt_dec (mget (v_Sigma p) 0%nat 0%nat) 0); [lra|].
    cbn [bind]. destruct (Rlt_dec (mget (v_rho p) 0%nat 0%nat ^ 2) 1); [reflexivity|lra].
  Qed.

  (** Were the grid built, the arrays would be as follows. *)
  Theorem gdp_moments : forall grid_call m Sigma N x w,
    nrow Sigma = 1%nat -> ncol Sigma = 1%nat -> nrow m = 1%nat -> ncol m = 1%nat ->
    0 <= mget Sigma 0 0 -> mget m 0 0 ^ 2 < 1 -> herm 5%nat = Ok (x, w) -> exact_rule 5 x w ->
    (forall a b n, grid_call a b n = Ok tt) ->
    exists g, discretize_gdp_with herm chol grid_call (PyMat m) Sigma N = Ok g /\
      nrow (gdp_nodes g) = N /\ gdp_k g = 5%nat /\
      (forall i, (i < N)%nat ->
         mget (gdp_nodes g) i 0 = linspace (- gdp_bound (mget m 0 0) (mget Sigma 0 0)) (gdp_bound (mget m 0 0) (mget Sigma 0 0)) N i /\
         rsum 5 (gdp_iweights g i) = 1 /\
         mean 5 (gdp_iweights g i) (gdp_inodes g i) 0 = mget m 0 0 * mget (gdp_nodes g) i 0 /\
         cov 5 (gdp_iweights g i) (gdp_inodes g i) 0 0 = mget Sigma 0 0).
  Proof.
    intros grid_call m Sigma N x w H1 H2 H3 H4 H5 H6 H7 H8 HG.
    unfold discretize_gdp_with, square_one, gauss_hermite_nodes, herms. rewrite H1, H2, H3, H4, H7.
    cbn [Nat.eqb negb andb bind]. destruct (Rlt_dec (mget Sigma 0%nat 0%nat) 0); [lra|]. cbn [bind].
    destruct (Rlt_dec (mget m 0%nat 0%nat ^ 2) 1); [|lra]. rewrite HG. cbn [bind].
    eexists. split; [reflexivity|]. split; [reflexivity|]. split; [reflexivity|]. intros i Hi. split; [reflexivity|].
    set (h := (5%nat, (x, w))). destruct (gh_sums h H8) as (S1 & S2 & S3). change (fst h) with 5%nat in *.
    set (B := gdp_bound (mget m 0%nat 0%nat) (mget Sigma 0%nat 0%nat)).
    unfold gdp_arrays. cbn [gdp_iweights gdp_inodes gdp_nodes mget].
    set (W := vget (gh_weights h)) in *.
    set (rx := mget m 0%nat 0%nat * linspace (- B) B N i).
    set (sg := sqrt (mget Sigma 0%nat 0%nat)).
    assert (M : mean 5 W (fun j => [rx + nth j (gh_points h) 0 * sg]) 0 = rx).
    { unfold mean, expect, coord. cbn [nth].
      rewrite (rsum_ext _ _ (fun j => sg * (W j * nth j (gh_points h) 0) + W j * rx)) by (intros; ring).
      rewrite rsum_plus, rsum_scal, rsum_scal_r, S1, S2. ring. }
    split; [exact S1|]. split; [exact M|].
    unfold cov. rewrite M. unfold expect, coord. cbn [nth].
    rewrite (rsum_ext _ _ (fun j => sg * sg * (W j * (nth j (gh_points h) 0 * nth j (gh_points h) 0)))) by (intros; ring).
    rewrite rsum_scal, S3. unfold sg. rewrite sqrt_sqrt by exact H5. ring.
  Qed.
End G.

Lemma lost_mean : forall rho mu x, rho ^ 2 < 1 -> mu <> 0 -> rho * x <> mu + rho * (x - mu).
Proof.
  intros rho mu x H1 H2 E. assert (mu * (1 - rho) = 0) by lra. apply Rmult_integral in H as [H|H]; [contradiction|].
  assert (rho = 1) by lra. subst. lra.
Qed.

(** An exact rule with five nodes exists: three-point rule padded with null weights. *)
Definition padded_x (i : nat) : R := match i with 0%nat => - sqrt (3 / 2) | 1%nat => sqrt (3 / 2) | _ => 0 end.
Definition padded_w (i : nat) : R := match i with 0%nat | 1%nat => sqrt PI / 6 | 2%nat => sqrt PI * (2 / 3) | _ => 0 end.
Lemma padded_exact : exact_rule 5 padded_x padded_w.
Proof.
  assert (Q : sqrt (3 / 2) * sqrt (3 / 2) = 3 / 2) by (apply sqrt_sqrt; lra).
  unfold exact_rule. cbn [rsum padded_x padded_w]. split; [lra|]. split; [lra|].
  replace (sqrt PI / 6 * (- sqrt (3 / 2)) ^ 2) with (sqrt PI / 6 * (sqrt (3 / 2) * sqrt (3 / 2))) by ring.
  replace (sqrt PI / 6 * sqrt (3 / 2) ^ 2) with (sqrt PI / 6 * (sqrt (3 / 2) * sqrt (3 / 2))) by ring.
  rewrite Q. lra.
Qed.

Lemma gdp_bound_sd : forall rho s2, 0 <= s2 -> rho ^ 2 < 1 -> gdp_bound rho s2 = 5 / 2 * sqrt (s2 / (1 - rho ^ 2)).
Proof. intros. unfold gdp_bound. rewrite sqrt_div; [reflexivity|assumption|lra]. Qed.

Theorem gdp_moments_sd : forall herm chol grid_call m Sigma N x w,
  nrow Sigma = 1%nat -> ncol Sigma = 1%nat -> nrow m = 1%nat -> ncol m = 1%nat ->
  0 <= mget Sigma 0 0 -> mget m 0 0 ^ 2 < 1 -> herm 5%nat = Ok (x, w) -> exact_rule 5 x w ->
  (forall a b n, grid_call a b n = Ok tt) ->
  exists g, discretize_gdp_with herm chol grid_call (PyMat m) Sigma N = Ok g /\
    nrow (gdp_nodes g) = N /\ gdp_k g = 5%nat /\
    (forall i, (i < N)%nat ->
       mget (gdp_nodes g) i 0 =
         linspace (- (5 / 2 * sqrt (mget Sigma 0 0 / (1 - mget m 0 0 ^ 2)))) (5 / 2 * sqrt (mget Sigma 0 0 / (1 - mget m 0 0 ^ 2))) N i /\
       rsum 5 (gdp_iweights g i) = 1 /\
       mean 5 (gdp_iweights g i) (gdp_inodes g i) 0 = mget m 0 0 * mget (gdp_nodes g) i 0 /\
       cov 5 (gdp_iweights g i) (gdp_inodes g i) 0 0 = mget Sigma 0 0).
Proof.
  intros. rewrite <- gdp_bound_sd by assumption. eapply gdp_moments; eassumption.
Qed.
(** Whatever μ, were the grid built. *)
Theorem gdp_wrong_mean : forall herm chol grid_call p N x w,
  nrow (v_Sigma p) = 1%nat -> ncol (v_Sigma p) = 1%nat -> nrow (v_rho p) = 1%nat -> ncol (v_rho p) = 1%nat ->
  0 <= mget (v_Sigma p) 0 0 -> mget (v_rho p) 0 0 ^ 2 < 1 -> herm 5%nat = Ok (x, w) -> exact_rule 5 x w ->
  (forall a b n, grid_call a b n = Ok tt) -> vget (v_mu p) 0 <> 0 ->
  exists g, discretize_gdp_with herm chol grid_call (PyMat (v_rho p)) (v_Sigma p) N = Ok g /\
    forall i, (i < N)%nat ->
      mean 5 (gdp_iweights g i) (gdp_inodes g i) 0 <>
      vget (v_mu p) 0 + mget (v_rho p) 0 0 * (mget (gdp_nodes g) i 0 - vget (v_mu p) 0).
Proof.
  intros herm chol gc p N x w A B C D E F G H I J.
  destruct (gdp_moments herm chol gc (v_rho p) (v_Sigma p) N x w A B C D E F G H I) as (g & K & _ & _ & L).
  exists g. split; [exact K|]. intros i Hi. destruct (L i Hi) as (_ & _ & M & _). rewrite M. apply lost_mean; assumption.
Qed.
