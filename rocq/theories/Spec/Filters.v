(** Vocabulary for statements on filters. *)
From Coq Require Import Reals Arith.
From Verif.Base Require Import Prelude Sums.
Open Scope R_scope.

(** Criterion of the Hodrick-Prescott filter for a series of length [n]:
    sum_t (y_t - x_t)^2 + lam sum_t ((x_{t+2} - x_{t+1}) - (x_{t+1} - x_t))^2. *)
Definition hp_criterion (n : nat) (lam : R) (y x : nat -> R) : R :=
  rsum n (fun t => (y t - x t) ^ 2) + lam * rsum (n - 2) (fun t => ((x (t + 2)%nat - x (t + 1)%nat) - (x (t + 1)%nat - x t)) ^ 2).

(** [x] is the only minimiser (series are compared on the first [n] dates). *)
Definition hp_trend (n : nat) (lam : R) (y x : nat -> R) : Prop :=
  forall z, hp_criterion n lam y x <= hp_criterion n lam y z /\
            (hp_criterion n lam y z <= hp_criterion n lam y x -> forall t, (t < n)%nat -> z t = x t).
