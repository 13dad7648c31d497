(** What the interpolation library is expected to do. *)
From Coq Require Import Reals List Arith.
From Verif.Base Require Import Prelude Arrays.
From Verif.Model Require Import Grids DecisionRule.
Import ListNotations.
Open Scope R_scope.

(** Node [k] of a Cartesian grid. *)
Definition node_of (g : grid) (k : nat) : list R :=
  match g with
  | GUniform u => row (u_nodes u) k
  | GNonUniform u => row (nu_nodes u) k
  | GUnstructured p => row p k
  | _ => []
  end.

Definition distinct_nodes (g : grid) : Prop :=
  forall j k, (j < n_nodes g)%nat -> (k < n_nodes g)%nat -> node_of g j = node_of g k -> j = k.

(** A Cartesian grid with axes of sizes [dims]. *)
Definition cartesian_grid (g : grid) (dims : list nat) : Prop :=
  grid_dims g = Some dims /\ n_nodes g = Product.prodn dims /\ distinct_nodes g.

(** The values stored for node [k] in an array of shape (..., n_x). *)
Definition values_at (c : nd) (n_x k : nat) : list R := map (fun j => nd_data c (k * n_x + j)%nat) (seq 0 n_x).

(** An interpolant evaluates each point separately and returns the stored values at the nodes. *)
Definition evaluates (g : grid) (values : nd) (n_x : nat) (ev : list (list R) -> res (list (list R))) : Prop :=
  exists F, (forall pts, ev pts = Ok (map F pts)) /\
    forall k, (k < n_nodes g)%nat -> F (node_of g k) = values_at values n_x k.

(** Contract of eval_linear(grid, values, points): [values] has the shape of the grid plus one
    axis for the components. *)
Definition linear_contract (ev : grid -> nd -> list (list R) -> res (list (list R))) : Prop :=
  forall g dims n_x c, cartesian_grid g dims -> nd_shape c = dims ++ [n_x] -> evaluates g c n_x (ev g c).

(** Contract of prefilter_cubic / eval_cubic. *)
Definition cubic_contract (pre : grid -> nd -> res nd) (ev : grid -> nd -> list (list R) -> res (list (list R))) : Prop :=
  forall g dims n_x c, cartesian_grid g dims -> nd_shape c = dims ++ [n_x] ->
    exists c', pre g c = Ok c' /\ evaluates g c n_x (ev g c').
