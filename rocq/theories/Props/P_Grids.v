(** Property theorems C09-C12: Cartesian products and grids. *)
From Coq Require Import Reals List Arith Lia Lra.
From Verif.Base Require Import Prelude Arrays.
From Verif.Spec Require Import Product.
From Verif.Model Require Import Grids.
From Verif.Proofs Require Import GridProofs.
Import ListNotations.
Open Scope R_scope.

(** [cartesian] with a floating point first axis enumerates the product in C order. *)
Theorem C09_cartesian :
  forall arrays,
    arrays <> [] -> Forall (fun a => 0 < length a)%nat arrays ->
    exists p, cartesian false arrays = Ok p /\ nrow p = prodn (map (@length R) arrays) /\
              ncol p = length arrays /\ enumerates 0 arrays (mget p).
Proof. exact cartesian_correct. Qed.
Print Assumptions C09_cartesian.

(** Every row of the result is the row of exactly one tuple of indices. *)
Theorem C09_rows_are_tuples :
  forall dims r, (r < prodn dims)%nat ->
    exists idx, valid_index dims idx /\ rank dims idx = r /\
      forall idx', valid_index dims idx' -> rank dims idx' = r -> idx' = idx.
Proof. exact rank_unique. Qed.
Print Assumptions C09_rows_are_tuples.

(** Index tuples have ranks inside the array. *)
Theorem C09_tuples_are_rows :
  forall dims idx, valid_index dims idx -> (rank dims idx < prodn dims)%nat.
Proof. exact rank_lt. Qed.
Print Assumptions C09_tuples_are_rows.

(** mlinspace is cartesian of the equally spaced axes (it is the nodes of the uniform grid). *)
Theorem C09_mlinspace :
  forall min max n,
    min <> [] -> length max = length min -> length n = length min -> Forall (fun k => 1 <= k)%nat n ->
    exists p axes, mlinspace min max n = Ok p /\ nrow p = prodn n /\ ncol p = length min /\
      length axes = length min /\
      (forall k, (k < length min)%nat ->
         axis_of (nth k min 0) (nth k max 0) (nth k n 0%nat) (nth k axes []) /\
         nth 0 (nth k axes []) 0 = nth k min 0) /\
      enumerates 0 axes (mget p).
Proof. exact mlinspace_spec. Qed.
Print Assumptions C09_mlinspace.

(** With an integer first axis the other axes are truncated to integers. *)
Theorem C09_integer_first_axis_refuted :
    exists p, cartesian true [[0; 1]; [3 / 2; 2]] = Ok p /\ mget p 0%nat 1%nat = 1 /\
                 ~ enumerates 0 [[0; 1]; [3 / 2; 2]] (mget p).
Proof. exact cartesian_int_first. Qed.
Print Assumptions C09_integer_first_axis_refuted.

Example C09_example :
  exists p, cartesian false [[1; 2]; [3 / 2; 5; 7]] = Ok p /\ nrow p = 6%nat /\
            mget p 5%nat 0%nat = 2 /\ mget p 4%nat 1%nat = 5.
Proof.
  destruct (C09_cartesian [[1; 2]; [3 / 2; 5; 7]] ltac:(discriminate)
    ltac:(repeat constructor; simpl; lia)) as (p & E & H1 & _ & H2).
  exists p. split; [exact E|]. split; [exact H1|]. split.
  - exact (H2 [1%nat; 2%nat] ltac:(repeat constructor; simpl; lia) 0%nat ltac:(simpl; lia)).
  - exact (H2 [1%nat; 1%nat] ltac:(repeat constructor; simpl; lia) 1%nat ltac:(simpl; lia)).
Qed.

(** Uniform grids: as many nodes as the product of [n], in C order over equally spaced axes. *)
Theorem C10_uniform_grid :
  forall min max n,
    min <> [] -> length max = length min -> length n = length min -> Forall (fun k => 1 <= k)%nat n ->
    exists g axes, uniform_grid min max n = Ok g /\
      u_min g = min /\ u_max g = max /\ u_n g = n /\
      nrow (u_nodes g) = prodn n /\ ncol (u_nodes g) = length min /\ length axes = length min /\
      (forall k, (k < length min)%nat ->
         axis_of (nth k min 0) (nth k max 0) (nth k n 0%nat) (nth k axes []) /\
         nth 0 (nth k axes []) 0 = nth k min 0) /\
      enumerates 0 axes (mget (u_nodes g)).
Proof. exact uniform_grid_spec. Qed.
Print Assumptions C10_uniform_grid.

(** All nodes lie in the box, the first is min and the last is max. *)
Theorem C10_nodes_in_box :
  forall min max n g,
    min <> [] -> length max = length min -> length n = length min -> Forall (fun k => 1 <= k)%nat n ->
    uniform_grid min max n = Ok g ->
    (forall k, (k < length min)%nat -> nth k min 0 <= nth k max 0) ->
    (forall r k, (r < nrow (u_nodes g))%nat -> (k < length min)%nat ->
       nth k min 0 <= mget (u_nodes g) r k <= nth k max 0) /\
    (forall k, (k < length min)%nat -> mget (u_nodes g) 0%nat k = nth k min 0) /\
    (Forall (fun k => 2 <= k)%nat n ->
     forall k, (k < length min)%nat -> mget (u_nodes g) (nrow (u_nodes g) - 1)%nat k = nth k max 0).
Proof. exact uniform_grid_box. Qed.
Print Assumptions C10_nodes_in_box.

(** Too few bounds or node counts raise, and so does the default n=[]. *)
Theorem C10_errors :
  forall min max n,
    (length max < length min)%nat \/ (length n < length min)%nat \/ min = [] \/ n = [] ->
    uniform_grid min max n = Err ExcIndex.
Proof. exact uniform_grid_short. Qed.
Print Assumptions C10_errors.

Example C10_example :
  exists g, uniform_grid [0; 1] [2; 4] [3%nat; 2%nat] = Ok g /\
            nrow (u_nodes g) = 6%nat /\ mget (u_nodes g) 5%nat 1%nat = 4.
Proof.
  destruct (C10_uniform_grid [0; 1] [2; 4] [3%nat; 2%nat] ltac:(discriminate) eq_refl eq_refl
    ltac:(repeat constructor)) as (g & axes & E & _ & _ & _ & Hr & _).
  exists g. split; [exact E|]. split; [exact Hr|].
  destruct (C10_nodes_in_box [0; 1] [2; 4] [3%nat; 2%nat] g ltac:(discriminate) eq_refl eq_refl
    ltac:(repeat constructor) E) as (_ & _ & H).
  - intros [|[|k]] Hk; simpl in *; try lra; lia.
  - rewrite Hr in H. exact (H ltac:(repeat constructor) 1%nat ltac:(simpl; lia)).
Qed.

(** Non-uniform grids add as the product of their axes. *)
Theorem C11_nonuniform_add :
  forall a1 a2 g1 g2,
    nonuniform_grid a1 = Ok g1 -> nonuniform_grid a2 = Ok g2 ->
    exists g, nonuniform_add g1 g2 = Ok g /\ nu_axes g = a1 ++ a2 /\
      nrow (nu_nodes g) = (nrow (nu_nodes g1) * nrow (nu_nodes g2))%nat /\
      enumerates 0 (a1 ++ a2) (mget (nu_nodes g)).
Proof. exact nonuniform_add_ok. Qed.
Print Assumptions C11_nonuniform_add.

(** Uniform grids add correctly when both have the same bounds ... *)
Theorem C11_uniform_add_same_bounds :
  forall min max n1 n2 g1 g2,
    min <> [] -> length max = length min -> length n1 = length min -> length n2 = length min ->
    Forall (fun k => 1 <= k)%nat n1 -> Forall (fun k => 1 <= k)%nat n2 ->
    uniform_grid min max n1 = Ok g1 -> uniform_grid min max n2 = Ok g2 ->
    exists g axes, uniform_add g1 g2 = Ok g /\
      nrow (u_nodes g) = (nrow (u_nodes g1) * nrow (u_nodes g2))%nat /\
      u_min g = min ++ min /\ u_max g = max ++ max /\ u_n g = n1 ++ n2 /\
      length axes = (2 * length min)%nat /\
      (forall k, (k < 2 * length min)%nat ->
         axis_of (nth k (min ++ min) 0) (nth k (max ++ max) 0) (nth k (n1 ++ n2) 0%nat) (nth k axes []) /\
         nth 0 (nth k axes []) 0 = nth k (min ++ min) 0) /\
      enumerates 0 axes (mget (u_nodes g)).
Proof. exact uniform_add_same_bounds. Qed.
Print Assumptions C11_uniform_add_same_bounds.

(** ... and wrongly otherwise: [0,1] + [2,3] has all its second coordinates at most 1. *)
Theorem C11_uniform_add_refuted :
    exists g1 g2 g, uniform_grid [0] [1] [2%nat] = Ok g1 /\ uniform_grid [2] [3] [2%nat] = Ok g2 /\
      uniform_add g1 g2 = Ok g /\ u_max g = [1; 1] /\
      (forall r, (r < nrow (u_nodes g))%nat -> mget (u_nodes g) r 1%nat <= 1).
Proof. exact uniform_add_wrong. Qed.
Print Assumptions C11_uniform_add_refuted.

Example C11_example :
  exists g1 g2, nonuniform_grid [[1; 2]] = Ok g1 /\ nonuniform_grid [[3]; [4; 5]] = Ok g2 /\
    exists g, nonuniform_add g1 g2 = Ok g /\ nu_axes g = [[1; 2]; [3]; [4; 5]].
Proof. do 2 eexists. split; [reflexivity|]. split; [reflexivity|]. eexists. split; reflexivity. Qed.

(** An empty grid is neutral on the left. *)
Theorem C12_cat_empty : forall g, cat_grids GEmpty g = Ok g /\ grid_add GEmpty g = Ok g.
Proof. exact cat_empty. Qed.
Print Assumptions C12_cat_empty.

(** Two Cartesian grids can never be combined by cat_grids / [*]. *)
Theorem C12_cat_cartesian_refuted :
  forall g1 g2,
    (exists u, g1 = GUniform u) \/ (exists u, g1 = GNonUniform u) ->
    (exists u, g2 = GUniform u) \/ (exists u, g2 = GNonUniform u) ->
    cat_grids g1 g2 = Err ExcType.
Proof. exact cat_cartesian_raises. Qed.
Print Assumptions C12_cat_cartesian_refuted.
