(** Gaussian quadrature for the normal law, with no reference to the code. *)
From Coq Require Import Reals Arith.
From Verif.Base Require Import Sums.
Open Scope R_scope.

(** (H_n(x), H_(n-1)(x)) for the Hermite polynomials of the weight exp(-x^2):
    H_0 = 1, H_1 = 2x, H_(k+1) = 2x H_k - 2k H_(k-1). *)
Fixpoint hermite_pair (n : nat) (x : R) : R * R :=
  match n with
  | O => (1, 0)
  | S k => let p := hermite_pair k x in (2 * x * fst p - 2 * INR k * snd p, fst p)
  end.

Definition hermite (n : nat) (x : R) : R := fst (hermite_pair n x).

(** The classical weight of the node [x] in the rule of order [n]:
    2^(n-1) n! sqrt(pi) / (n^2 H_(n-1)(x)^2). *)
Definition hermite_weight (n : nat) (x : R) : R :=
  2 ^ (n - 1) * INR (fact n) * sqrt PI / (INR n ^ 2 * hermite (n - 1) x ^ 2).

(** Nodes: [n] different roots of the n-th polynomial. *)
Definition hermite_nodes (n : nat) (x : nat -> R) : Prop :=
  (forall i, (i < n)%nat -> hermite n (x i) = 0) /\
  (forall i j, (i < n)%nat -> (j < n)%nat -> x i = x j -> i = j).

(** The moments E X^k of a normal variable X with mean [mu] and standard deviation [sigma]:
    E X^0 = 1, E X = mu, E X^(k+2) = mu E X^(k+1) + (k+1) sigma^2 E X^k. *)
Fixpoint normal_moments (mu sigma : R) (k : nat) : R * R :=
  match k with
  | O => (1, 0)
  | S j => let p := normal_moments mu sigma j in (mu * fst p + INR j * sigma ^ 2 * snd p, fst p)
  end.

Definition normal_moment (mu sigma : R) (k : nat) : R := fst (normal_moments mu sigma k).

(** A finite law with the moments of a normal variable up to degree [d]. *)
Definition matches_normal (d : nat) (mu sigma : R) (n : nat) (x w : nat -> R) : Prop :=
  forall k, (k <= d)%nat -> rsum n (fun i => w i * x i ^ k) = normal_moment mu sigma k.
