(** Property theorems C67, C106, C107: product bases, sparse Jacobians, the operator of improved time
    iteration. *)
From Coq Require Import String Reals List Arith Bool Lia Lra.
From Verif.Base Require Import Prelude Arrays Sums.
From Verif.Spec Require Import LinearAlgebra NewtonStep.
From Verif.Model Require Import DecisionRule TimeIteration LinearSolve ImprovedTimeIteration.
From Verif.Base Require Import Nda.
From Verif.Model Require Import Bruteforce.
From Verif.Spec Require Import Bruteforce.
From Verif.Proofs Require Import GaussFinal PerturbationFinal TimeIterationProofs BruteforceProofs BruteforceFinal.
Import ListNotations.
Open Scope R_scope.
Open Scope list_scope.

(** C67.  B_prod of one to three square bases is their Kronecker product, ... *)
Theorem C67_kronecker :
  forall bs, Forall square bs -> (1 <= length bs <= 3)%nat ->
    exists M, B_prod bs = Ok M /\ nrow M = size (map nrow bs) /\ ncol M = size (map nrow bs) /\
      forall idx jdx, valid idx (map nrow bs) -> valid jdx (map nrow bs) ->
        mget M (ravel (map nrow bs) idx) (ravel (map nrow bs) jdx) = kron_entry bs idx jdx.
Proof. exact kron_dims. Qed.
Print Assumptions C67_kronecker.

(** ... so that it applies every factor along its own axis. *)
Theorem C67_apply :
  forall bs M c idx, Forall square bs -> B_prod bs = Ok M -> valid idx (map nrow bs) -> (1 <= length bs <= 3)%nat ->
    rsum (ncol M) (fun k => mget M (ravel (map nrow bs) idx) k * c (unravel (map nrow bs) k))
    = msum (map nrow bs) (fun jdx => kron_entry bs idx jdx * c jdx).
Proof. exact kron_apply. Qed.
Print Assumptions C67_apply.

Example C67_kronecker_example :
  Forall square [Mat 2 2 (fun i j => INR (i + j)); Mat 3 3 (fun i j => INR (i * j)); Mat 1 1 (fun _ _ => 2)] /\
  kron_entry [Mat 2 2 (fun i j => INR (i + j)); Mat 3 3 (fun i j => INR (i * j))] [1; 2]%nat [1; 1]%nat = 4.
Proof. split; [repeat constructor|]. cbn. lra. Qed.

(** C67 (finding).  Four bases or more: no product is returned. *)
Theorem C67_four_bases_refuted : forall b1 b2 b3 b4 bs, B_prod (b1 :: b2 :: b3 :: b4 :: bs) = Err ExcName.
Proof. exact (fun _ _ _ _ _ => eq_refl). Qed.
Print Assumptions C67_four_bases_refuted.

(** C67.  Reshaping a sparse tensor keeps every value at its position in C order; other sizes and
    indices outside of the shape are refused. *)
Theorem C67_reshape :
  forall t sh, well_formed t -> sh <> [] -> st_shape t <> [] -> size sh = size (st_shape t) ->
    exists t', sp_reshape t sh = Ok t' /\ st_shape t' = sh /\ well_formed t' /\
      forall idx idx', valid idx (st_shape t) -> valid idx' sh -> ravel (st_shape t) idx = ravel sh idx' ->
        stored t' idx' = stored t idx.
Proof. exact sp_reshape_values. Qed.
Print Assumptions C67_reshape.
Theorem C67_reshape_refused :
  forall t sh, sh <> [] -> st_shape t <> [] ->
    (size sh <> size (st_shape t) -> sp_reshape t sh = Err ExcAssert) /\
    (forall idx, size sh = size (st_shape t) -> In idx (st_inds t) -> ~ valid idx (st_shape t) -> sp_reshape t sh = Err ExcValue).
Proof. exact sp_reshape_refused. Qed.
Print Assumptions C67_reshape_refused.

(** C67.  As an array with p rows and q columns: the value at position idx is in row and column
    ravel(idx) / q and ravel(idx) mod q; what lies beyond the returned shape holds no stored entry... *)
Theorem C67_as_array_partial :
  forall t p q, well_formed t -> st_inds t <> [] -> st_shape t <> [] -> size (st_shape t) = (p * q)%nat ->
    exists M, as_array t (Some [p; q]) = Ok M /\ (nrow M <= p)%nat /\ (ncol M <= q)%nat /\
      (forall idx r c, valid idx (st_shape t) -> (r < p)%nat -> (c < q)%nat -> ravel (st_shape t) idx = (r * q + c)%nat ->
         ((r < nrow M)%nat -> (c < ncol M)%nat -> mget M r c = stored t idx) /\
         ((nrow M <= r)%nat \/ (ncol M <= c)%nat -> ~ In idx (st_inds t))) /\
      (forall idx, In idx (st_inds t) -> (ravel (st_shape t) idx / q < nrow M)%nat /\ (ravel (st_shape t) idx mod q < ncol M)%nat) /\
      (exists idx, In idx (st_inds t) /\ (ravel (st_shape t) idx / q = nrow M - 1)%nat) /\
      (exists idx, In idx (st_inds t) /\ (ravel (st_shape t) idx mod q = ncol M - 1)%nat).
Proof. exact as_array_dims. Qed.
Print Assumptions C67_as_array_partial.

(** ... but (finding) the shape asked for is not the shape returned: a 2 x 2 tensor whose only entry is
    in the corner becomes a 1 x 1 array, and an empty one raises. *)
Theorem C67_as_array_shape_refuted : exists M,
    as_array (Sparse [[0; 0]%nat] [5] [2; 2]%nat) (Some [2; 2]%nat) = Ok M /\ nrow M = 1%nat /\ ncol M = 1%nat.
Proof. exact as_array_shrinks. Qed.
Print Assumptions C67_as_array_shape_refuted.
Theorem C67_as_array_empty_refuted : as_array (Sparse [] [] [2; 2]%nat) (Some [2; 2]%nat) = Err ExcValue.
Proof. exact as_array_empty. Qed.
Print Assumptions C67_as_array_empty_refuted.

(** C67.  Without dims the array is square, when the size allows it. *)
Theorem C67_as_array_square :
  forall t, st_shape t <> [] ->
    (forall P, size (st_shape t) = (P * P)%nat -> as_array t None = as_array t (Some [P; P])) /\
    ((forall P, size (st_shape t) <> P * P)%nat -> as_array t None = Err ExcAssert).
Proof. exact as_array_default. Qed.
Print Assumptions C67_as_array_square.

Example C67_sparse_example : well_formed (Sparse [[0; 1]; [1; 0]; [0; 1]]%nat [1; 2; 3] [2; 3]%nat) /\
  stored (Sparse [[0; 1]; [1; 0]; [0; 1]]%nat [1; 2; 3] [2; 3]%nat) [0; 1]%nat = 4.
Proof. split; [split; [reflexivity|repeat constructor]|]. cbn. lra. Qed.

(** C67.  The sparse Jacobian with respect to the current controls is the dense one, for all shapes
    that are not empty, and multiplies vectors block by block. *)
Theorem C67_present_jacobian :
  forall n_m N n_x dres, (1 <= n_m)%nat -> (1 <= N)%nat -> (1 <= n_x)%nat ->
    exists t M, dres_to_sparse n_m N n_x n_x dres = Ok t /\ as_array t None = Ok M /\
      nrow M = (n_m * N * n_x)%nat /\ ncol M = (n_m * N * n_x)%nat /\
      (forall r c, (r < n_m * N * n_x)%nat -> (c < n_m * N * n_x)%nat -> mget M r c = mget (jac_1 n_m N n_x dres) r c) /\
      (forall x i n k, (i < n_m)%nat -> (n < N)%nat -> (k < n_x)%nat ->
         mat_vec (n_m * N * n_x) (mget M) x (place N n_x i n k)
         = rsum n_x (fun l => dres i n k l * x (place N n_x i n l))).
Proof. exact present_jacobian. Qed.
Print Assumptions C67_present_jacobian.

(** C67.  The same for the Jacobian with respect to future controls. *)
Theorem C67_future_jacobian :
  forall n_m N n_x jres, (1 <= n_m)%nat -> (1 <= N)%nat -> (1 <= n_x)%nat ->
    exists t M, jres_to_sparse n_m N n_x n_m n_x jres = Ok t /\ as_array t None = Ok M /\
      nrow M = (n_m * N * n_x)%nat /\ ncol M = (n_m * N * n_x)%nat /\
      (forall r c, (r < n_m * N * n_x)%nat -> (c < n_m * N * n_x)%nat -> mget M r c = mget (j2_A n_m N n_x jres) r c) /\
      (forall x i n k, (i < n_m)%nat -> (n < N)%nat -> (k < n_x)%nat ->
         mat_vec (n_m * N * n_x) (mget M) x (place N n_x i n k)
         = rsum n_m (fun j => rsum n_x (fun l => jres i n k j l * x (place N n_x j n l)))).
Proof. exact future_jacobian. Qed.
Print Assumptions C67_future_jacobian.
Theorem C67_jacobian_refused :
  forall n_m N n_x a b dres jres,
    (a <> n_x -> dres_to_sparse n_m N n_x a dres = Err ExcAssert) /\
    (a <> n_m \/ b <> n_x -> jres_to_sparse n_m N n_x a b jres = Err ExcAssert).
Proof. exact jacobian_refused. Qed.
Print Assumptions C67_jacobian_refused.

Example C67_jacobian_example : exists t,
  dres_to_sparse 1 2 1 1 (fun _ n _ _ => INR n + 1) = Ok t /\ stored t [0; 1; 0; 0; 1; 0]%nat = 2 /\ stored t [0; 0; 0; 0; 1; 0]%nat = 0.
Proof. eexists. split; [reflexivity|]. cbn. split; lra. Qed.

(** C67.  mult_AB solves, page by page, the current block for the future one. *)
Theorem C67_mult_AB :
  forall solve n_m N n_x dres jres out, exact_solver solve ->
    mult_AB solve n_m N n_x dres jres = Ok out ->
    forall i n j v, (i < n_m)%nat -> (n < N)%nat -> (j < n_m)%nat -> (v < n_x)%nat ->
      solves n_x (dres i n) (fun k => jres i n k j v) (fun k => out i n k j v) /\
      (forall y, solves n_x (dres i n) (fun k => jres i n k j v) y -> forall k, (k < n_x)%nat -> y k = out i n k j v).
Proof. exact mult_AB_spec. Qed.
Print Assumptions C67_mult_AB.
Example C67_mult_AB_example : exact_solver LinearSolve.gauss_solve /\ exists out,
  mult_AB LinearSolve.gauss_solve 1 1 1 (fun _ _ _ _ => 2) (fun _ _ _ _ _ => 6) = Ok out /\ out 0%nat 0%nat 0%nat 0%nat 0%nat = 3.
Proof. exact mult_AB_example. Qed.

(** C67 (finding).  Entry points that read a name which is defined nowhere: NameError whenever that
    line is reached. *)
Theorem C67_unusable_refuted :
  (forall f, In f ["SmartJacobian.get_filter"; "SmartJacobian.B"; "SmartJacobian.j2_B"; "SmartJacobian.jac_2";
                   "SmartJacobian.jac"; "SmartJacobian.solve"; "SmartJacobian.solve_sp"; "SmartJacobian.solve_smart";
                   "SmartJacobian.solve_ind"; "compact_ddx"; "construct_j2"; "classical_perturbation";
                   "newtonator"; "spectral_radius"]%string -> missing_names f <> []) /\
  (forall f, In f ["B_prod"; "mult_AB"; "SparseTensor"; "dres_to_sparse"; "jres_to_sparse";
                   "SmartJacobian.jac_1"; "SmartJacobian.j2_A"]%string -> missing_names f = []).
Proof. exact names_missing. Qed.
Print Assumptions C67_unusable_refuted.

(** C106.  The operator given to gmres is the matrix returned by its as_matrix, or the identity minus it. *)
Theorem C106_matrix :
  forall ev n_m n_im N n_x M fut, linear_rule n_m n_im N n_x ev ->
    forall x r, (r < n_m * N * n_x)%nat ->
      op_matvec ev n_m n_im N n_x M fut false x r
        = mat_vec (n_m * N * n_x) (mget (op_as_matrix ev n_m n_im N n_x M fut)) x r /\
      op_matvec ev n_m n_im N n_x M fut true x r
        = x r - mat_vec (n_m * N * n_x) (mget (op_as_matrix ev n_m n_im N n_x M fut)) x r.
Proof. exact matvec_matrix. Qed.
Print Assumptions C106_matrix.

(** C106.  It is the effect of a change of the future rule. *)
Theorem C106_effect :
  forall ev n_m n_im N n_x M fut x i n k, (i < n_m)%nat -> (n < N)%nat -> (k < n_x)%nat ->
    op_matvec ev n_m n_im N n_x M fut false x (place N n_x i n k)
    = future_effect n_im n_x ev M fut (fun i n k => x (place N n_x i n k)) i n k.
Proof. exact matvec_effect. Qed.
Print Assumptions C106_effect.

(** C106.  The step through gmres solves the Newton system up to the image of gmres's own residual; its
    return code is not looked at. *)
Theorem C106_newton_step :
  forall ev n_m n_im N n_x M fut gmres r D J tot,
    premultiply n_m n_im N n_x D J = Ok M ->
    gmres_step ev n_m n_im N n_x M fut gmres r D = Ok tot ->
    exists b y, y = fst (gmres (op_matvec ev n_m n_im N n_x M fut true) b) /\
      newton_system n_m n_im N n_x ev D J fut r tot
        (present_effect n_x D (fun i n k => b (place N n_x i n k) - op_matvec ev n_m n_im N n_x M fut true y (place N n_x i n k))).
Proof. exact gmres_newton. Qed.
Print Assumptions C106_newton_step.

Example C106_example : linear_rule 2 2 3 1 (fun p i j S l => p j 0%nat l) /\
  op_matvec (fun p i j S l => p j 0%nat l) 1 1 1 1 (fun _ _ _ _ _ => 3) (fun _ _ _ => []) true (fun _ => 2) 0%nat = -4.
Proof.
  split; [intros a b p q r H i j S l Hi Hj Hl; apply H; lia|exact operator_example].
Qed.

(** C107.  radius_jac: the estimates are the successive growth ratios of the Euclidean norm of the
    images of the first direction; the last and the largest are returned. *)
Theorem C107_ratios :
  forall ev n_m n_im N n_x M fut, linear_rule n_m n_im N n_x ev ->
    forall maxit draw l lmax ls,
      radius_jac ev n_m n_im N n_x M fut maxit draw = Some (l, lmax, ls) ->
      length ls = maxit /\
      (forall c, (c < maxit)%nat ->
         0 < norm2 n_m N n_x (images (op_apply ev n_m n_im n_x M fut) c draw) /\
         nth c ls 0 = norm2 n_m N n_x (images (op_apply ev n_m n_im n_x M fut) (S c) draw)
                      / norm2 n_m N n_x (images (op_apply ev n_m n_im n_x M fut) c draw)) /\
      l = last ls 1 /\ lmax = fold_left Rmax ls 0.
Proof. exact radius_jac_spec. Qed.
Print Assumptions C107_ratios.

(** C107.  None of them exceeds a bound of the operator. *)
Theorem C107_bound :
  forall ev n_m n_im N n_x M fut, linear_rule n_m n_im N n_x ev ->
    forall maxit draw l lmax ls C, 0 <= C ->
      (forall p, norm2 n_m N n_x (op_apply ev n_m n_im n_x M fut p) <= C * norm2 n_m N n_x p) ->
      radius_jac ev n_m n_im N n_x M fut maxit draw = Some (l, lmax, ls) ->
      lmax <= C /\ forall v, In v ls -> 0 <= v <= lmax.
Proof. exact radius_bound. Qed.
Print Assumptions C107_bound.

Example C107_example : exists l lmax ls,
  radius_jac (fun p i j S l => p 0%nat 0%nat 0%nat) 1 1 1 1 (fun _ _ _ _ _ => 1 / 2) (fun _ _ _ => []) 2 (fun _ _ _ => 3) = Some (l, lmax, ls) /\
  l = 1 / 2 /\ lmax = 1 / 2.
Proof. exact radius_example. Qed.
