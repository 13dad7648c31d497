(** Properties of the grid of a model (dolo/compiler/model.py, dolo/compiler/language.py): C111. *)
From Coq Require Import String Reals List Arith Lia.
From Verif.Base Require Import Prelude Dict Arrays.
From Verif.Model Require Import Grids ModelObject ModelGrid.
From Verif.Spec Require Import Product ModelGrid.
From Verif.Proofs Require Import ModelGridProofs.
Import ListNotations.

(** C111. A section tagged as a cartesian grid gives, for every domain and every file, equally spaced nodes over the
    intervals of the domain: options/grid/n of them per dimension, else options/grid/orders, else 20. *)
Theorem C111_cartesian_partial : forall eval_orders eval_mu eval_axis data d t l orders,
    at_path data ["options"; "grid"]%string = Some (YMap t l) ->
    In t ["!Cartesian"; "!CartesianGrid"; "!cartesian"; "!cartesiangrid"]%string ->
    d <> [] -> orders_of eval_orders data (length d) orders ->
    length orders = length d -> Forall (fun k => 1 <= k)%nat orders ->
    exists g, endo_grid eval_orders eval_mu eval_axis data (Ok (Some d)) = Ok (EUniform g) /\ regular_grid d orders g.
Proof. exact cartesian_grid. Qed.
Print Assumptions C111_cartesian_partial.

(** A section tagged as a Smolyak grid gives the level options/grid/mu, 2 when it is not given. *)
Theorem C111_smolyak : forall eval_orders eval_mu eval_axis data d t l,
    at_path data ["options"; "grid"]%string = Some (YMap t l) ->
    In t ["!Smolyak"; "!SmolyakGrid"; "!smolyak"; "!smolyakgrid"]%string ->
    match at_path data ["options"; "grid"; "mu"]%string with
    | Some x => forall mu, eval_mu x = Ok mu ->
        endo_grid eval_orders eval_mu eval_axis data (Ok (Some d)) = Ok (ESmolyak (domain_min d) (domain_max d) mu)
    | None => endo_grid eval_orders eval_mu eval_axis data (Ok (Some d)) = Ok (ESmolyak (domain_min d) (domain_max d) 2%nat)
    end.
Proof. exact smolyak_grid. Qed.
Print Assumptions C111_smolyak.

(** A tagged list of axes gives the grid with these axes. *)
Theorem C111_nonuniform : forall eval_orders eval_mu eval_axis data d t l axes g,
    at_path data ["options"; "grid"]%string = Some (YSeq t l) ->
    In t ["!NonUniformCartesian"; "!NonUniformCartesianGrid"; "!nonuniformcartesian"]%string ->
    length axes = length l -> (forall k x, nth_error l k = Some x -> eval_axis x = Ok (nth k axes [])) ->
    nonuniform_grid axes = Ok g ->
    endo_grid eval_orders eval_mu eval_axis data (Ok (Some d)) = Ok (ENonUniform g).
Proof. exact nonuniform_grid_of_model. Qed.
Print Assumptions C111_nonuniform.

(** With the orders given to discretize, these are used and the options of the file are not; without any, 10 nodes. *)
Theorem C111_discretize : forall eval_orders eval_mu eval_axis data d n,
    d <> [] -> length n = length d -> Forall (fun k => 1 <= k)%nat n ->
    exists g, discretize_grid eval_orders eval_mu eval_axis data (Ok (Some d)) (Some (Some n)) = Ok (EUniform g) /\ regular_grid d n g.
Proof. exact discretize_n. Qed.
Print Assumptions C111_discretize.
Theorem C111_discretize_default : forall eval_orders eval_mu eval_axis data d, d <> [] ->
    exists g, discretize_grid eval_orders eval_mu eval_axis data (Ok (Some d)) (Some None) = Ok (EUniform g) /\
      regular_grid d (repeat 10%nat (length d)) g.
Proof. exact discretize_default_n. Qed.
Print Assumptions C111_discretize_default.

(** Without options, discretize follows the options of the file. *)
Theorem C111_discretize_file : forall eval_orders eval_mu eval_axis data d t l orders,
    at_path data ["options"; "grid"]%string = Some (YMap t l) ->
    In t ["!Cartesian"; "!CartesianGrid"; "!cartesian"; "!cartesiangrid"]%string ->
    d <> [] -> orders_of eval_orders data (length d) orders ->
    length orders = length d -> Forall (fun k => 1 <= k)%nat orders ->
    exists g, discretize_grid eval_orders eval_mu eval_axis data (Ok (Some d)) None = Ok (EUniform g) /\ regular_grid d orders g.
Proof. exact cartesian_grid. Qed.
Print Assumptions C111_discretize_file.
Theorem C111_discretize_smolyak : forall eval_orders eval_mu eval_axis data d t l x mu,
    at_path data ["options"; "grid"]%string = Some (YMap t l) ->
    In t ["!Smolyak"; "!SmolyakGrid"; "!smolyak"; "!smolyakgrid"]%string ->
    at_path data ["options"; "grid"; "mu"]%string = Some x -> eval_mu x = Ok mu ->
    discretize_grid eval_orders eval_mu eval_axis data (Ok (Some d)) None = Ok (ESmolyak (domain_min d) (domain_max d) mu).
Proof. exact smolyak_discretized. Qed.
Print Assumptions C111_discretize_smolyak.

(** Refuted for a section without a tag: it raises "Unknown grid type." whatever it contains, a field "type" included. *)
Theorem C111_untagged_refuted : forall eval_orders eval_mu eval_axis data d l,
    at_path data ["options"; "grid"]%string = Some (YMap map_tag l) ->
    endo_grid eval_orders eval_mu eval_axis data (Ok (Some d)) = Err (ExcGeneric "Unknown grid type.").
Proof. exact untagged_refused. Qed.
Print Assumptions C111_untagged_refuted.

(** Refuted for a file without the section: AttributeError, so that neither options/grid_type nor the message meant for this
    case is ever reached. *)
Theorem C111_missing_refuted : forall eval_orders eval_mu eval_axis tag l d,
    at_path (YMap tag l) ["options"; "grid"]%string = None ->
    endo_grid eval_orders eval_mu eval_axis (YMap tag l) (Ok (Some d)) = Err ExcAttribute.
Proof. exact missing_grid. Qed.
Print Assumptions C111_missing_refuted.

(** Refuted for the columns: they follow the order of the section domain and not the declared states.  The state k, declared
    first with bounds 0 and 1, gets nodes that start at 5. *)
Theorem C111_columns_refuted : exists (sec : section R R) sec' dom g,
  dget sec "k"%string = Some (BNum 0%R, BNum 1%R) /\ dget sec "b"%string = Some (BNum 5%R, BNum 6%R) /\
  get_domain (fun (_ : unit) e => Ok e) false ["k"; "b"]%string (None, None) (Ok tt) (Some sec) = (sec', Ok (Some dom)) /\
  endo_grid (fun _ => Ok [2; 2]%nat) (fun _ => Err ExcType) (fun _ => Err ExcType) two_states (Ok (Some dom)) = Ok (EUniform g) /\
  mget (u_nodes g) 0 0 = 5%R.
Proof. exact swapped_columns. Qed.
Print Assumptions C111_columns_refuted.

(** The hypotheses are met by the file [two_states]. *)
Example C111_example :
  at_path two_states ["options"; "grid"]%string = Some (YMap "!Cartesian" [("n", YScalar "" "2")])%string /\
  orders_of (fun _ => Ok [2; 2]%nat) two_states 2 [2; 2]%nat.
Proof. split; reflexivity. Qed.
