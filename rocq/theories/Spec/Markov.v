(** Independent vocabulary for statements about finite Markov chains. *)
From Coq Require Import Reals List Arith.
From Verif.Base Require Import Sums Arrays.
Import ListNotations.
Open Scope R_scope.

(** A probability matrix over [n] states. *)
Definition stochastic (n : nat) (P : mat) : Prop :=
  nrow P = n /\ ncol P = n /\
  (forall i j, (i < n)%nat -> (j < n)%nat -> 0 <= mget P i j) /\
  (forall i, (i < n)%nat -> rsum n (fun j => mget P i j) = 1).

(** Expectation of [f] of the next state, from state [i]. *)
Definition next_mean (n : nat) (P : mat) (i : nat) (f : nat -> R) : R :=
  rsum n (fun j => mget P i j * f j).

(** [mu] is a stationary law of [P]. *)
Definition stationary (n : nat) (P : mat) (mu : nat -> R) : Prop :=
  forall j, (j < n)%nat -> rsum n (fun i => mu i * mget P i j) = mu j.

(** Points are equally spaced. *)
Definition equally_spaced (n : nat) (y : nat -> R) (step : R) : Prop :=
  forall i, (S i < n)%nat -> y (S i) - y i = step.

(** Cells delimited by midpoints between consecutive nodes, the first and the last
    cell being unbounded; [F] is the distribution function of the continuous law. *)
Definition cell_prob (n : nat) (y : nat -> R) (F : R -> R) (k : nat) : R :=
  (if Nat.eqb k (n - 1) then 1 else F ((y k + y (S k)) / 2))
  - (if Nat.eqb k 0 then 0 else F ((y (k - 1)%nat + y k) / 2)).

(** Joint states of several independent components, the last component varying
    fastest: component states encoded by a joint index. *)
Fixpoint size_prod (sizes : list nat) : nat :=
  match sizes with
  | [] => 1%nat
  | s :: l => (s * size_prod l)%nat
  end.

Fixpoint components (sizes : list nat) (k : nat) : list nat :=
  match sizes with
  | [] => []
  | s :: l => (k / size_prod l)%nat :: components l (k mod size_prod l)%nat
  end.

(** Product of the components' transition probabilities. *)
Fixpoint joint_prob (ps : list mat) (ks ls : list nat) : R :=
  match ps, ks, ls with
  | p :: ps', k :: ks', l :: ls' => mget p k l * joint_prob ps' ks' ls'
  | _, _, _ => 1
  end.

(** Concatenation of the components' values. *)
Fixpoint joint_values (vs : list mat) (ks : list nat) : list R :=
  match vs, ks with
  | v :: vs', k :: ks' => row v k ++ joint_values vs' ks'
  | _, _ => []
  end.

(** A chain given as (nodes, transition matrix): one row of nodes per state and a
    square matrix. *)
Definition wf_chain (c : mat * mat) : Prop :=
  nrow (fst c) = nrow (snd c) /\ nrow (snd c) = ncol (snd c).

(** Numbers of states of a list of chains. *)
Definition sizes (l : list (mat * mat)) : list nat := map (fun c => nrow (snd c)) l.

(** scipy.linalg.cholesky's contract: an upper factor U with U^T U = A. *)
Definition is_cholesky_upper (d : nat) (A U : mat) : Prop :=
  nrow U = d /\ ncol U = d /\
  (forall i j, (i < d)%nat -> (j < i)%nat -> mget U i j = 0) /\
  (forall i, (i < d)%nat -> 0 < mget U i i) /\
  (forall i j, (i < d)%nat -> (j < d)%nat ->
     rsum d (fun k => mget U k i * mget U k j) = mget A i j).

(** Weights of the binomial law on 0..N-1 with probability one half. *)
Definition binom_half (N i : nat) : R := C (N - 1) i / 2 ^ (N - 1).


(** Symmetric positive definite matrices. *)
Definition sym_posdef (d : nat) (A : mat) : Prop :=
  nrow A = d /\ ncol A = d /\
  (forall i j, (i < d)%nat -> (j < d)%nat -> mget A i j = mget A j i) /\
  (forall x : nat -> R, (exists i, (i < d)%nat /\ x i <> 0) ->
     0 < rsum d (fun i => rsum d (fun j => x i * mget A i j * x j))).
