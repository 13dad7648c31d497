(** What the options of a model say about its grid. *)
From Coq Require Import String Reals List Arith.
From Verif.Base Require Import Prelude Dict Arrays.
From Verif.Spec Require Import Product.
From Verif.Model Require Import Grids ModelGrid.
Import ListNotations.

(** The entry of a file under a sequence of keys. *)
Fixpoint at_path (data : ynode) (keys : list string) : option ynode :=
  match keys with
  | [] => Some data
  | k :: r => match data with
              | YMap _ l => match dget l k with Some d => at_path d r | None => None end
              | _ => None
              end
  end.

(** The number of nodes per dimension: options/grid/n, else options/grid/orders, else 20 each. *)
Definition orders_of (eval_orders : ynode -> res (list nat)) (data : ynode) (dim : nat) (orders : list nat) : Prop :=
  match at_path data ["options"; "grid"; "n"]%string, at_path data ["options"; "grid"; "orders"]%string with
  | Some x, Some y => eval_orders x = Ok orders /\ exists o, eval_orders y = Ok o
  | Some x, None => eval_orders x = Ok orders
  | None, Some y => eval_orders y = Ok orders
  | None, None => orders = repeat 20%nat dim
  end.

(** A grid over the intervals [d] with [orders] equally spaced nodes per dimension, in C order. *)
Definition regular_grid (d : dict (R * R)) (orders : list nat) (g : ugrid) : Prop :=
  nrow (u_nodes g) = prodn orders /\ ncol (u_nodes g) = length d /\
  exists axes, length axes = length d /\
    (forall k name a b, nth_error d k = Some (name, (a, b)) ->
       axis_of a b (nth k orders 0%nat) (nth k axes []) /\ nth 0 (nth k axes []) 0%R = a) /\
    enumerates 0%R axes (mget (u_nodes g)).
