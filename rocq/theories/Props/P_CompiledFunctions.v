(** C145: the functions of a model, and the algorithms that look for them. *)
From Coq Require Import String List Bool ZArith.
From Verif Require Import Base.Prelude Base.Dict Model.CompilerMisc Model.Factories Model.ModelObject Model.Examples
  Model.CompiledFunctions Spec.Examples Spec.CompiledFunctions Proofs.DefinitionOrder Proofs.ExamplesRun
  Proofs.CompiledFunctionsProofs.
Import ListNotations.
Open Scope string_scope.
Open Scope list_scope.

(** [model.functions[name]] is the function made from the block of that name ("equilibrium" and "optimality"
    stand for "arbitrage"), a KeyError if the file has no such block; [name in model.functions] does not know the
    other names. *)
Theorem C145_functions :
  forall (V : Type) reorder (m : @source V) d n, compile_functions reorder m = Ok d ->
    (forall f, loosy_getitem d n = Ok f <-> has_block m (meant_by n) /\ get_factory reorder m (meant_by n) 0 = Ok f) /\
    (~ has_block m (meant_by n) -> loosy_getitem d n = Err ExcKey) /\
    (loosy_contains d n = true <-> has_block m n).
Proof. exact @functions_of. Qed.
Print Assumptions C145_functions.

(** An algorithm finds its functions if and only if the file has the blocks it needs; otherwise it raises a KeyError. *)
Theorem C145_algorithms :
  forall (V : Type) reorder (m : @source V) st d a, ready reorder m st d -> (a = Egm -> st <> None) ->
    match algorithm_functions reorder m st a with
    | Ok _ => forall n, needs m a n -> has_block m n
    | Err e => e = ExcKey /\ exists n, needs m a n /\ ~ has_block m n
    end.
Proof. exact @algorithm_starts. Qed.
Print Assumptions C145_algorithms.

(** A file with a block of another name is refused. *)
Theorem C145_known_blocks :
  forall (V : Type) reorder (m : @source V) d n, compile_functions reorder m = Ok d -> has_block m n -> known_block n.
Proof. exact @blocks_known. Qed.
Print Assumptions C145_known_blocks.

(** The bounds of a model ([model.x_bounds]) are those of the complementarity conditions, or nothing. *)
Theorem C145_x_bounds :
  forall (V : Type) reorder (m : @source V) d, compile_functions reorder m = Ok d ->
    (x_bounds (items d) = Ok None <-> ~ has_block m "arbitrage_ub") /\
    (forall l u, x_bounds (items d) = Ok (Some (l, u)) <->
       has_block m "arbitrage_lb" /\ has_block m "arbitrage_ub" /\
       get_factory reorder m "arbitrage_lb" 0 = Ok l /\ get_factory reorder m "arbitrage_ub" 0 = Ok u) /\
    (has_block m "arbitrage_ub" -> ~ has_block m "arbitrage_lb" -> x_bounds (items d) = Err ExcKey).
Proof. exact @x_bounds_of. Qed.
Print Assumptions C145_x_bounds.

(** C145 fails for value iteration: it looks for functions "controls_lb" and "controls_ub" that no model can
    have, and raises a KeyError on every model. *)
Theorem C145_value_iteration_refuted :
  forall (V : Type) reorder (m : @source V) check st, new_model reorder check m = Ok st ->
    exists e, algorithm_functions reorder m st ValueIteration = Err e /\
      (forall d, compile_functions reorder m = Ok d -> e = ExcKey).
Proof. exact @value_iteration_fails. Qed.
Print Assumptions C145_value_iteration_refuted.

(** C145 fails for the other names of the arbitrage equations: a file that uses them is refused. *)
Theorem C145_alias_refuted :
  forall (V : Type) reorder (m : @source V) n, n = "equilibrium" \/ n = "optimality" -> has_block m n ->
    forall check, exists e, (if check : bool then new_model reorder check m = Err e
                             else compile_functions reorder m = Err e).
Proof. exact @alias_refused. Qed.
Print Assumptions C145_alias_refuted.

(** C145 fails for the endogenous grid method on a model read without checks, whose functions were not used yet. *)
Theorem C145_egm_unchecked_refuted :
  forall (V : Type) reorder (m : @source V) st, new_model reorder false m = Ok st ->
    algorithm_functions reorder m st Egm = Err ExcAttribute.
Proof. exact @egm_unchecked. Qed.
Print Assumptions C145_egm_unchecked_refuted.

(** The files of examples/models: all can be read, and the algorithms that run on each. *)
Theorem C145_examples :
  forall reorder, right_order reorder -> forall f,
    exists st, new_model reorder true (file_source (shipped_file f)) = Ok st /\
      forall a, (exists l, algorithm_functions reorder (file_source (shipped_file f)) st a = Ok l) <-> runs_on a f.
Proof. exact shipped_runs. Qed.
Print Assumptions C145_examples.

(** Such a file, read with the usual checks: time iteration runs, with or without constraints; value iteration
    does not, although the file has a block "felicity". *)
Example C145_case :
  has_block (file_source rbc_mc_file) "felicity" /\
  exists st d, new_model tri_order true (file_source rbc_mc_file) = Ok st /\ ready tri_order (file_source rbc_mc_file) st d /\
    (exists l, algorithm_functions tri_order (file_source rbc_mc_file) st (TimeIteration true) = Ok l) /\
    algorithm_functions tri_order (file_source rbc_mc_file) st ValueIteration = Err ExcKey.
Proof. exact rbc_mc_case. Qed.

Example C145_alias_case : has_block (Source (V := nat) [] [("equilibrium", [])] []) "equilibrium".
Proof. left. exists []. left. reflexivity. Qed.
