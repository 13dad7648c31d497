(** What the options of [egm] mean. *)
From Coq Require Import String Reals List Arith Bool.
From Verif.Base Require Import Prelude Arrays Ext.
From Verif.Model Require Import Grids Processes DecisionRule TimeIteration TimeIterationCall Egm EgmCall.
Import ListNotations.
Open Scope R_scope.

(** Grids and process: the ones given, or those of the model. *)
Definition egm_uses (md : egm_model) (a : egm_args) (exo endo : grid) (d : dexo) : Prop :=
  ga_grid a = Some (exo, endo) /\ ga_dp a = Some d \/
  ga_grid a = None /\ ga_dp a = None /\ exo = em_exo_grid md /\ endo = em_endo_grid md /\ d = em_process md.

(** First rule: the one given, or the calibrated control everywhere. *)
Definition egm_first (md : egm_model) (a : egm_args) (dr0 : nat -> R -> R) : Prop :=
  ga_dr0 a = Some dr0 \/ ga_dr0 a = None /\ dr0 = (fun _ _ => em_x0 md).

(** Numbers of the integration nodes are numbers of nodes. *)
Definition pages_known (d : dexo) : Prop :=
  forall i j, (i < ex_n d)%nat -> (j < dp_n (ex_dp d) i)%nat -> (j < ex_n d)%nat.

(** The bounds of the model define an interval at every node and state. *)
Definition bounds_order (f : egm_funs) (d : dexo) : Prop :=
  forall i (ss : R), ef_lb f (ex_node d i) ss <> PInf /\ ef_ub f (ex_node d i) ss <> MInf /\
    ext_le (ef_lb f (ex_node d i) ss) (ef_ub f (ex_node d i) ss).
