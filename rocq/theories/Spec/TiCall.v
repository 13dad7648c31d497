(** What the options of time iteration mean. *)
From Coq Require Import String Reals List Arith Bool.
From Verif.Base Require Import Prelude Arrays Ext.
From Verif.Spec Require Import Euler TimeIteration.
From Verif.Model Require Import Grids Processes DecisionRule TimeIteration TimeIterationCall.
Import ListNotations.
Open Scope R_scope.

(** Bounds count when the model has some and, [with_complementarities] (obsolete) deciding if it is given,
    [ignore_constraints] is not set. *)
Definition bounds_count (md : ti_model) (a : ti_args) : Prop :=
  tm_bounds md <> None /\
  (ta_compl a = Some true \/ ta_compl a = None /\ ta_ignore a = false).

(** The process solved for: the one given, otherwise the model's. *)
Definition process_used (md : ti_model) (a : ti_args) (d : dexo) : Prop :=
  ta_process a = Some d \/ ta_process a = None /\ d = tm_process md.

(** The bounds at node [n] of the grid and exogenous state [i]. *)
Definition bounds_used (md : ti_model) (a : ti_args) (d : dexo) (b : option (tensor_ext * tensor_ext)) : Prop :=
  (~ bounds_count md a /\ b = None) \/
  (bounds_count md a /\ exists lb ub l u,
     tm_bounds md = Some (lb, ub) /\ b = Some (l, u) /\
     forall i n k, l i n k = lb (ex_node d i) (nth n (endo_nodes (tm_endo_grid md)) []) k /\
                   u i n k = ub (ex_node d i) (nth n (endo_nodes (tm_endo_grid md)) []) k).

(** Same values at the nodes. *)
Definition same_values (d : dexo) (N n_x : nat) (x y : tensor) : Prop :=
  forall i n k, (i < ex_n d)%nat -> (n < N)%nat -> (k < n_x)%nat -> x i n k = y i n k.

(** [t] is the list of the rules of a run: the initial one, then each obtained from the previous one by
    solving today's equations, up to the returned one. *)
Definition run_recorded (step : tensor -> tensor -> Prop) (first : tensor -> Prop) (n : nat) (final : tensor)
    (t : list tensor) : Prop :=
  length t = S n /\
  (exists x, nth_error t 0 = Some x /\ first x) /\
  nth_error t n = Some final /\
  forall j x y, nth_error t j = Some x -> nth_error t (S j) = Some y -> step x y.

(** The same model with a chain of its own: grid [nodes], process [d]. *)
Definition with_chain (md : ti_model) (nodes : mat) (d : dexo) : ti_model :=
  TiModel (GUnstructured nodes) (tm_endo_grid md) d (tm_x0 md) (tm_g md) (tm_f md) (tm_bounds md).

(** The same options without a process. *)
Definition without_process (a : ti_args) : ti_args :=
  TiArgs (ta_dr0 a) (ta_details a) (ta_ignore a) (ta_trace a) None (ta_maxit a) (ta_inner a) (ta_tol a)
         (ta_interp a) (ta_compl a).

(** The same rule, result of a run, with another exogenous grid. *)
Definition relocate (g : grid) (x : solved_rule) : solved_rule :=
  SolvedRule g (sr_endo_grid x) (sr_process x) (sr_interp x) (sr_values x).
Definition relocate_result (g : grid) (b : solved_rule * option ti_details) : solved_rule * option ti_details :=
  (relocate g (fst b),
   match snd b with
   | Some dt => Some (TiDetails (dt_iterations dt) (dt_compl dt) (dt_process dt) (dt_converged dt) (dt_tol dt) (dt_err dt)
                        (match dt_trace dt with Some t => Some (map (relocate g) t) | None => None end))
   | None => None
   end).
