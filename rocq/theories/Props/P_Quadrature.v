(** Property theorems C125: Gauss-Hermite quadrature.  Hermite polynomials, the classical
    weights and the moments of the normal law are defined in Spec/Quadrature.v. *)
From Coq Require Import Reals List.
From Verif.Base Require Import Prelude Sums.
From Verif.Spec Require Import Law Quadrature.
From Verif.Model Require Import Distributions.
From Verif.Proofs Require Import Hermite HermiteRoots HermiteRule NormalProofs HermiteThree.
Open Scope R_scope.

(** The n-th Hermite polynomial has n different real roots, and no other. *)
Theorem C125_roots :
  forall n, exists x, hermite_nodes n x /\ (forall i j, (i < j)%nat -> (j < n)%nat -> x i < x j) /\
    forall z, hermite n z = 0 -> exists i, (i < n)%nat /\ z = x i.
Proof.
  exact (fun n => match roots_exist n with
                  | ex_intro _ x (conj M N) => ex_intro _ x (conj N (conj M (roots_all n x N))) end).
Qed.
Print Assumptions C125_roots.

(** Every node that hermgauss returns is within (n+1) 1e-14 of a root of the n-th Hermite
    polynomial, and its weight is the classical one, taken at a point within 1e-14. *)
Theorem C125_computed_rule :
  forall n x w, hermgauss n = Ok (x, w) -> forall i, (i < n)%nat ->
    (exists r, hermite n r = 0 /\ Rabs (x i - r) < (INR n + 1) / 10 ^ 14) /\
    (exists z, Rabs (x i - z) < 1 / 10 ^ 14 /\ hermite (n - 1) z <> 0 /\ w i = hermite_weight n z).
Proof. exact hermgauss_accuracy. Qed.
Print Assumptions C125_computed_rule.

(** If the returned nodes are apart from each other, they are approximations of all the
    roots, one node for each. *)
Theorem C125_all_roots :
  forall n x w, hermgauss n = Ok (x, w) ->
    (forall i j, (i < n)%nat -> (j < n)%nat -> i <> j -> 2 * (INR n + 1) / 10 ^ 14 <= Rabs (x i - x j)) ->
    exists r, hermite_nodes n r /\ forall i, (i < n)%nat -> Rabs (x i - r i) < (INR n + 1) / 10 ^ 14.
Proof. exact hermgauss_all_roots. Qed.
Print Assumptions C125_all_roots.

(** The rule that hermgauss approximates has, after the scaling of gauss_hermite_nodes, the
    moments of the normal law up to degree 2n-1; so UNormal.discretize(N, method="gauss-hermite")
    has them if the nodes and weights are the exact ones. *)
Theorem C125_exact_degree :
  forall herm chol sigma mu n x,
    0 <= sigma -> (1 <= n)%nat ->
    hermite_nodes n x -> herm n = Ok (x, fun i => hermite_weight n (x i)) ->
    exists d, unormal_gh herm chol sigma mu n = Ok d /\ iid_n d = n /\ is_law n (iid_weight d) /\
      matches_normal (2 * n - 1) mu sigma n (fun i => coord 0 (iid_point d i)) (iid_weight d).
Proof. exact unormal_matches. Qed.
Print Assumptions C125_exact_degree.

(** From order two on, these rules meet the hypothesis of C07 and C80. *)
Theorem C125_meets_C07 :
  forall n x, (2 <= n)%nat -> hermite_nodes n x -> exact_rule n x (fun i => hermite_weight n (x i)).
Proof. exact gauss_exact_rule. Qed.
Print Assumptions C125_meets_C07.

(** The polynomials, the moments, and nodes of order two; order one as computed by the code. *)
Example C125_example_polynomials : forall x,
  hermite 1 x = 2 * x /\ hermite 2 x = 4 * x ^ 2 - 2 /\ hermite 3 x = 8 * x ^ 3 - 12 * x.
Proof. exact low_hermite. Qed.

Example C125_example_moments : forall mu sigma,
  normal_moment mu sigma 2 = mu ^ 2 + sigma ^ 2 /\
  normal_moment mu sigma 3 = mu ^ 3 + 3 * mu * sigma ^ 2 /\
  normal_moment 0 sigma 4 = 3 * sigma ^ 4.
Proof. exact low_moments. Qed.

Example C125_example_nodes :
  hermite_nodes 2 (fun i => match i with O => - (1 / sqrt 2) | _ => 1 / sqrt 2 end).
Proof. exact nodes_2. Qed.

Example C125_example_computed : exists x w, hermgauss 3 = Ok (x, w) /\
  forall i j, (i < 3)%nat -> (j < 3)%nat -> i <> j -> 2 * (INR 3 + 1) / 10 ^ 14 <= Rabs (x i - x j).
Proof. exact hermgauss_3_near. Qed.
