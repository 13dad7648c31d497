(** Stationary laws. *)
From Coq Require Import Reals Arith.
From Verif.Base Require Import Prelude Arrays Sums.
From Verif.Spec Require Import Markov LinearAlgebra.
Open Scope R_scope.

(** A probability that the chain leaves unchanged. *)
Definition stationary_law (n : nat) (P : mat) (mu : nat -> R) : Prop :=
  stationary n P mu /\ (forall i, (i < n)%nat -> 0 <= mu i) /\ rsum n mu = 1.
(** There is at most one. *)
Definition only_law (n : nat) (P : mat) : Prop :=
  forall mu nu, stationary_law n P mu -> stationary_law n P nu -> forall i, (i < n)%nat -> mu i = nu i.

(** A linear solver that only raises on singular matrices. *)
Definition complete_solver (solve : nat -> (nat -> nat -> R) -> (nat -> R) -> res (nat -> R)) : Prop :=
  forall n A b e, solve n A b = Err e -> singular n A.

(** Mean of [w] at the node reached [k] dates later, from node [i]. *)
Fixpoint mean_after (n : nat) (P : mat) (k : nat) (w : nat -> R) (i : nat) : R :=
  match k with O => w i | S k' => rsum n (fun j => mget P i j * mean_after n P k' w j) end.
