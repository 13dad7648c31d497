(** Property theorems C49-C51, C102: matrix equations, tensor contractions, Taylor expansions. *)
From Coq Require Import String Reals List Arith Lia Lra.
From Verif.Base Require Import Prelude Sums Arrays Nda.
From Verif.Spec Require Import LinearAlgebra Perturbation Tensor.
From Verif.Model Require Import LinearSolve DecisionRule Tensor MatrixEquations Taylor.
From Verif.Proofs Require Import TensorProofs MatrixEquationsProofs TaylorProofs.
Import ListNotations.
Open Scope R_scope.

(** C49.  What solve_sylvester returns satisfies A X + B X [C, ..., C] + D = 0, for all sizes and all
    orders d >= 1 of D. *)
Theorem C49_solves :
  forall solve A B C D n v d,
    nrow A = n /\ ncol A = n -> nrow B = n /\ ncol B = n -> nrow C = v /\ ncol C = v ->
    shape D = n :: repeat v d -> (1 <= d)%nat -> (1 <= v)%nat ->
    exact_solver solve ->
    forall X, solve_sylvester solve A B C D = Ok X ->
      shape X = shape D /\ sylvester n v d (mget A) (mget B) (mget C) X D.
Proof. exact sylvester_solves. Qed.
Print Assumptions C49_solves.

(** C49.  It returns whenever the system kron(A, I) + kron(B, (C x ... x C)') is regular. *)
Theorem C49_returns :
  forall A B C D n v d,
    nrow A = n /\ ncol A = n -> nrow B = n /\ ncol B = n -> nrow C = v /\ ncol C = v ->
    shape D = n :: repeat v d -> (1 <= d)%nat -> (1 <= v)%nat ->
    ~ singular (n * v ^ d) (sylvester_matrix (v ^ d) A B (kron_power C d)) ->
    exists X, solve_sylvester gauss_solve A B C D = Ok X.
Proof. exact sylvester_returns. Qed.
Print Assumptions C49_returns.

Example C49_example : exists X, solve_sylvester gauss_solve ex_one ex_one ex_C (Nda [1; 2]%nat (fun _ => 5)) = Ok X.
Proof. exact sylvester_example. Qed.

(** C49 refuted for order 0 (D is a vector): x + x + 5 = 0 is answered by -1 when C = 2; with two or
    more columns in C the call raises. *)
Theorem C49_order_0_refuted :
  exists X, solve_sylvester gauss_solve (Mat 1 1 (fun _ _ => 1)) (Mat 1 1 (fun _ _ => 1)) (Mat 1 1 (fun _ _ => 2)) (Nda [1%nat] (fun _ => 5)) = Ok X /\
    at_ X [0%nat] = -1.
Proof. exact sylvester_order_0. Qed.
Print Assumptions C49_order_0_refuted.

Theorem C49_order_0_raises :
  forall solve A B C D n v,
    nrow A = n /\ ncol A = n -> nrow B = n /\ ncol B = n -> nrow C = v /\ ncol C = v -> shape D = [n] ->
    (1 <= n)%nat -> v <> 1%nat -> exists e, solve_sylvester solve A B C D = Err e.
Proof. exact sylvester_order_0_raises. Qed.
Print Assumptions C49_order_0_raises.

(** C102.  What second_order_solver returns satisfies F P P + G P + H = 0. *)
Theorem C102_quadratic :
  forall solve qz m F G H P SS TT QQ ZZ,
    exact_solver solve -> second_order_solver solve qz m F G H = Ok P ->
    qz (m + m)%nat (companion_delta m F) (companion_xi m G H) 1 = Ok (SS, TT, QQ, ZZ) ->
    generalized_schur (m + m) (companion_delta m F) (companion_xi m G H) SS TT QQ ZZ ->
    splits_at m (m + m) SS -> splits_at m (m + m) TT ->
    quadratic_root m F G H P.
Proof. exact quadratic_solves. Qed.
Print Assumptions C102_quadratic.

Example C102_example : exists P,
    second_order_solver gauss_solve (fun _ _ _ _ => Ok (eye, ex_T2, ex_rotation, ex_rotation)) 1 (fun _ _ => 1) (fun _ _ => -(3/4)) (fun _ _ => 0) = Ok P /\
    generalized_schur 2 (companion_delta 1 (fun _ _ => 1)) (companion_xi 1 (fun _ _ => -(3/4)) (fun _ _ => 0)) eye ex_T2 ex_rotation ex_rotation /\
    splits_at 1 2 eye /\ splits_at 1 2 ex_T2 /\ P 0%nat 0%nat = 3/4.
Proof. exact quadratic_example. Qed.

(** C50.  sdot is the matrix product. *)
Theorem C50_sdot_matrices :
  forall n m q A B,
    exists T, sdot (matrix_of n m A) (matrix_of m q B) = Ok T /\ shape T = [n; q] /\
      forall i j, (i < n)%nat -> (j < q)%nat -> at_ T [i; j] = rsum m (fun k => A i k * B k j).
Proof. exact sdot_matrices. Qed.
Print Assumptions C50_sdot_matrices.

(** C50.  sdot on arrays of any rank; it raises on sizes that differ. *)
Theorem C50_sdot :
  forall U V kept d t, shape U = kept ++ [d] -> shape V = d :: t ->
    exists T, sdot U V = Ok T /\ contraction U [V] kept [d] T.
Proof. exact sdot_contracts. Qed.
Print Assumptions C50_sdot.
Theorem C50_sdot_mismatch :
  forall U V kept d d' t, shape U = kept ++ [d] -> shape V = d' :: t -> d <> d' -> sdot U V = Err ExcValue.
Proof. exact sdot_mismatch. Qed.
Print Assumptions C50_sdot_mismatch.

(** C50.  mdot contracts the last axes with the first axes of the matrices, in order, for all ranks and
    shapes that need at most 26 letters; beyond, it raises. *)
Theorem C50_mdot :
  forall M Cs kept ds, fits M Cs kept ds -> (1 <= length Cs)%nat -> (axes_named M Cs <= 26)%nat ->
    exists T, mdot M Cs = Ok T /\ contraction M Cs kept ds T.
Proof. exact mdot_contracts. Qed.
Print Assumptions C50_mdot.
Theorem C50_mdot_letters :
  forall M Cs kept ds, fits M Cs kept ds -> (1 <= length Cs)%nat -> (26 < axes_named M Cs)%nat -> mdot M Cs = Err ExcValue.
Proof. exact mdot_letters. Qed.
Print Assumptions C50_mdot_letters.

Example C50_example :
  fits (Nda [2; 3; 4]%nat (fun _ => 1)) [Nda [3; 5]%nat (fun _ => 1); Nda [4]%nat (fun _ => 1)] [2]%nat [3; 4]%nat /\
  (axes_named (Nda [2; 3; 4]%nat (fun _ => 1%R)) [Nda [3; 5]%nat (fun _ => 1%R); Nda [4]%nat (fun _ => 1%R)] <= 26)%nat.
Proof.
  split; [|cbn; lia]. split; [reflexivity|]. constructor; [exists [5]%nat; reflexivity|].
  constructor; [exists []; reflexivity|constructor].
Qed.

(** C50.  multidot_old computes the same contraction, without limit on the rank. *)
Theorem C50_multidot_old :
  forall M Cs kept ds, fits M Cs kept ds -> exists T, multidot_old M Cs = Ok T /\ contraction M Cs kept ds T.
Proof. exact multidot_old_contracts. Qed.
Print Assumptions C50_multidot_old.

(** C50.  Sizes that differ are refused when none of them is 1, as are more matrices than axes... *)
Theorem C50_mdot_mismatch :
  forall M Cs kept ds i d d' t,
    shape M = kept ++ ds -> length Cs = length ds -> Forall (fun C => shape C <> []) Cs ->
    nth_error ds i = Some d -> nth_error (map shape Cs) i = Some (d' :: t) -> d <> d' -> d <> 1%nat -> d' <> 1%nat ->
    exists e, mdot M Cs = Err e.
Proof. exact mdot_mismatch. Qed.
Print Assumptions C50_mdot_mismatch.
Theorem C50_mdot_too_many :
  forall M Cs, (length (shape M) < length Cs)%nat -> mdot M Cs = Err ExcIndex.
Proof. exact mdot_many. Qed.
Print Assumptions C50_mdot_too_many.

(** ... but (findings) a size of 1 is broadcast silently, and without matrices all entries are summed. *)
Theorem C50_mdot_size_one_refuted : exists T,
    mdot (matrix_of 1 2 (fun _ j => INR j + 1)) [matrix_of 1 1 (fun _ _ => 1)] = Ok T /\ shape T = [1%nat; 1%nat] /\ at_ T [0%nat; 0%nat] = 3.
Proof. exact mdot_broadcast. Qed.
Print Assumptions C50_mdot_size_one_refuted.
Theorem C50_mdot_no_matrix_refuted : exists T,
    mdot (Nda [2%nat] (fun _ => 1)) [] = Ok T /\ shape T = [] /\ at_ T [] = 2.
Proof. exact mdot_nothing. Qed.
Print Assumptions C50_mdot_no_matrix_refuted.

(** C50.  multitake keeps, along each of the given axes, the listed indices in the listed order. *)
Theorem C50_multitake :
  forall inds a axes, NoDup axes -> length axes = length inds ->
    (forall p ind, selection axes inds p = Some ind -> (p < length (shape a))%nat /\ forall i, In i ind -> (i < nth p (shape a) 0)%nat) ->
    exists T, multitake a inds axes = Ok T /\ length (shape T) = length (shape a) /\
      (forall p, (p < length (shape a))%nat ->
         nth p (shape T) 0%nat = match selection axes inds p with Some ind => length ind | None => nth p (shape a) 0%nat end) /\
      forall idx, length idx = length (shape a) ->
        exists src, length src = length idx /\ at_ T idx = at_ a src /\
          forall p, (p < length idx)%nat ->
            nth p src 0%nat = match selection axes inds p with Some ind => nth (nth p idx 0%nat) ind 0%nat | None => nth p idx 0%nat end.
Proof. exact multitake_ok. Qed.
Print Assumptions C50_multitake.

Example C50_multitake_example : exists T,
    multitake (Nda [2; 3]%nat (fun idx => INR (nth 0 idx 0 * 10 + nth 1 idx 0)%nat)) [[2; 0]%nat; [1]%nat] [1; 0]%nat = Ok T /\
    shape T = [1; 2]%nat /\ at_ T [0; 0]%nat = INR 12 /\ at_ T [0; 1]%nat = INR 10.
Proof. eexists. split; [reflexivity|]. repeat split. Qed.

(** C51.  Values of an expansion of order 1, 2 or 3 at one point and on rows of points. *)
Theorem C51_value :
  forall t p, well_formed_expansion (te_s t) (te_x t) (te_coefs t) -> length p = length (te_s t) ->
    exists out, te_eval1 t p = Ok out /\ length out = length (te_x t) /\
      forall n, (n < length (te_x t))%nat ->
        nth n out 0 = taylor (length (te_s t)) (fun n => nth n (te_x t) 0) (order1 (te_coefs t)) (order2 (te_coefs t)) (order3 (te_coefs t))
                        (fun i => nth i p 0 - nth i (te_s t) 0) n.
Proof. exact te_value. Qed.
Print Assumptions C51_value.

Theorem C51_rows :
  forall t rows, well_formed_expansion (te_s t) (te_x t) (te_coefs t) ->
    (forall r, In r rows -> length r = length (te_s t)) ->
    exists out, te_eval_s t (P2 rows) = Ok (P2 out) /\ length out = length rows /\
      forall r n, (r < length rows)%nat -> (n < length (te_x t))%nat ->
        nth n (nth r out []) 0 = taylor (length (te_s t)) (fun n => nth n (te_x t) 0) (order1 (te_coefs t)) (order2 (te_coefs t)) (order3 (te_coefs t))
                        (fun i => nth i (nth r rows []) 0 - nth i (te_s t) 0) n.
Proof. exact te_rows. Qed.
Print Assumptions C51_rows.

(** C51.  At the expansion point. *)
Theorem C51_expansion_point :
  forall t, well_formed_expansion (te_s t) (te_x t) (te_coefs t) -> te_eval_s t (P1 (te_s t)) = Ok (P1 (te_x t)).
Proof. exact te_at_point. Qed.
Print Assumptions C51_expansion_point.

(** C51.  Indexing selects components. *)
Theorem C51_getitem :
  forall t ind, well_formed_expansion (te_s t) (te_x t) (te_coefs t) ->
    (forall i, In i ind -> (i < length (te_x t))%nat) ->
    exists t', te_getitem t ind = Ok t' /\ well_formed_expansion (te_s t') (te_x t') (te_coefs t') /\ te_s t' = te_s t /\ length (te_x t') = length ind /\
      forall p out out', length p = length (te_s t) -> te_eval1 t p = Ok out -> te_eval1 t' p = Ok out' ->
        forall k, (k < length ind)%nat -> nth k out' 0 = nth (nth k ind 0%nat) out 0.
Proof. exact te_select. Qed.
Print Assumptions C51_getitem.

(** C51.  Orders accepted by the constructor. *)
Theorem C51_orders :
  forall s x cs,
    (length cs = 0%nat -> te_make s x cs = Err ExcIndex) /\
    (4 <= length cs -> te_make s x cs = Err (ExcGeneric "Not implemented"))%nat /\
    (1 <= length cs <= 3 -> te_make s x cs = Ok (TE s x cs))%nat.
Proof. exact te_make_cases. Qed.
Print Assumptions C51_orders.

Example C51_example : well_formed_expansion [1; 2] [3] [Nda [1; 2]%nat (fun _ => 1); Nda [1; 2; 2]%nat (fun _ => 2); Nda [1; 2; 2; 2]%nat (fun _ => 3)].
Proof. split; [cbn; lia|]. cbn. repeat split. Qed.
