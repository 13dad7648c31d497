(** Uniform grids on which distributions over states are computed. *)
From Coq Require Import Reals List Arith.
From Verif.Base Require Import Prelude.
From Verif.Model Require Import Grids.
Import ListNotations.
Open Scope R_scope.

(** A uniform Cartesian grid over one or two states, with lower bounds below upper bounds and
    at least two nodes per state. *)
Definition wf_grid (grid : ugrid) : Prop :=
  uniform_grid (u_min grid) (u_max grid) (u_n grid) = Ok grid /\
  (length (u_min grid) = 1%nat \/ length (u_min grid) = 2%nat) /\
  length (u_max grid) = length (u_min grid) /\ length (u_n grid) = length (u_min grid) /\
  Forall (fun n => 2 <= n)%nat (u_n grid) /\
  (forall c, (c < length (u_min grid))%nat -> nth c (u_min grid) 0 < nth c (u_max grid) 0).
