(** Finite laws on R^d: [n] points [x i] (lists of coordinates) with weights [w i]. *)
From Coq Require Import Reals List.
From Verif.Base Require Import Sums Arrays.
Import ListNotations.
Open Scope R_scope.

Definition expect (n : nat) (w : nat -> R) (x : nat -> list R) (f : list R -> R) : R :=
  rsum n (fun i => w i * f (x i)).

(** Nonnegative weights that sum to one. *)
Definition is_law (n : nat) (w : nat -> R) : Prop :=
  (forall i, (i < n)%nat -> 0 <= w i) /\ rsum n w = 1.

Definition coord (k : nat) (p : list R) : R := nth k p 0.

Definition mean (n : nat) (w : nat -> R) (x : nat -> list R) (k : nat) : R :=
  expect n w x (coord k).

Definition cov (n : nat) (w : nat -> R) (x : nat -> list R) (k l : nat) : R :=
  expect n w x (fun p => (coord k p - mean n w x k) * (coord l p - mean n w x l)).

(** A quadrature rule for the weight exp(-t^2) that is exact on polynomials of degree <= 2. *)
Definition exact_rule (n : nat) (x w : nat -> R) : Prop :=
  rsum n w = sqrt PI /\
  rsum n (fun i => w i * x i) = 0 /\
  rsum n (fun i => w i * x i ^ 2) = sqrt PI / 2.

(** numpy.linalg.cholesky's contract: a lower factor with L L^T = A. *)
Definition is_cholesky_lower (d : nat) (A L : mat) : Prop :=
  nrow L = d /\ ncol L = d /\
  (forall i j, (i < j)%nat -> (j < d)%nat -> mget L i j = 0) /\
  (forall i j, (i < d)%nat -> (j < d)%nat ->
     rsum d (fun k => mget L i k * mget L j k) = mget A i j).

(** Products over a list of one-dimensional functions. *)
Fixpoint prod_all (l : list R) : R := match l with [] => 1 | x :: t => x * prod_all t end.

(** The tuple of blocks [xs] has the block sizes [ds]. *)
Definition blocks_of (ds : list nat) (xs : list (list R)) : Prop :=
  Forall2 (fun d x => length x = d) ds xs.

(** Values f_1(x_1)*...*f_m(x_m). *)
Fixpoint prod_values (fs : list (list R -> R)) (xs : list (list R)) : R :=
  match fs, xs with
  | f :: fs', x :: xs' => f x * prod_values fs' xs'
  | _, _ => 1
  end.

(** f_1(i_1)*...*f_m(i_m), and the tuple of points (x_1(i_1), ..., x_m(i_m)). *)
Fixpoint prodl (fs : list (nat -> R)) (is : list nat) : R :=
  match fs, is with
  | f :: fs', i :: is' => f i * prodl fs' is'
  | _, _ => 1
  end.

Fixpoint points_at (xs : list (nat -> list R)) (is : list nat) : list (list R) :=
  match xs, is with
  | x :: xs', i :: is' => x i :: points_at xs' is'
  | _, _ => []
  end.
