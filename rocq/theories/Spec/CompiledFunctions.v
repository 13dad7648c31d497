(** Which blocks of equations a model file has, and which ones the algorithms need. *)
From Coq Require Import String List Bool.
From Verif Require Import Base.Prelude Base.Dict Model.CompilerMisc Model.Factories Model.Examples Model.CompiledFunctions.
Import ListNotations.
Open Scope string_scope.
Open Scope list_scope.

Section Spec.
Context {V : Type}.

(** The file has a block of equations of this name; definitions make the block "auxiliary". *)
Definition has_block (m : @source V) (name : string) : Prop :=
  (exists eqs, In (name, eqs) (src_equations m)) \/ name = "auxiliary" /\ src_definitions m <> [].

(** Other names for the arbitrage equations. *)
Definition meant_by (name : string) : string :=
  if string_dec name "equilibrium" then "arbitrage"
  else if string_dec name "optimality" then "arbitrage" else name.

(** The kinds of equations known to dolo. *)
Definition known_block (name : string) : Prop :=
  In name ["arbitrage"; "arbitrage_lb"; "arbitrage_ub"; "transition"; "value"; "felicity"; "expectation";
           "direct_response"; "half_transition"; "direct_response_egm"; "reverse_state"; "arbitrage_exp"; "auxiliary"].

(** The blocks without which the algorithm cannot start.  Constraints are optional for time iteration, but
    lower bounds go with upper bounds. *)
Definition needs (m : @source V) (a : algorithm) (name : string) : Prop :=
  match a with
  | Residuals | Perturb => In name ["arbitrage"; "transition"]
  | TimeIteration c => In name ["arbitrage"; "transition"] \/
      c = true /\ has_block m "arbitrage_lb" /\ name = "arbitrage_ub"
  | ImprovedTimeIteration => In name ["arbitrage"; "transition"; "arbitrage_lb"; "arbitrage_ub"]
  | EvaluatePolicy => In name ["value"; "transition"]
  | ValueIteration => In name ["transition"; "felicity"; "controls_lb"; "controls_ub"]
  | Egm => In name ["expectation"; "half_transition"; "direct_response_egm"; "reverse_state"; "arbitrage_lb"; "arbitrage_ub"]
  end.

(** The functions compile, and have been read before or not yet. *)
Definition ready (reorder : list (sym * expr V) -> res (list (sym * expr V))) (m : @source V)
    (st : @state V) (d : loosy (@factory V)) : Prop :=
  compile_functions reorder m = Ok d /\ (st = Some d \/ st = None).
End Spec.

(** The files of examples/models. *)
Inductive shipped : Type := Rbc | RbcIid | RbcAr1 | RbcMc | Fiscal | Savings.
Definition shipped_file (f : shipped) : file :=
  match f with
  | Rbc => rbc_file | RbcIid => rbc_iid_file | RbcAr1 => rbc_ar1_file
  | RbcMc => rbc_mc_file | Fiscal => fiscal_file | Savings => savings_file
  end.

(** Which algorithms find their functions in which file. *)
Definition runs_on (a : algorithm) (f : shipped) : Prop :=
  match a with
  | Residuals | Perturb | TimeIteration _ => True
  | ImprovedTimeIteration => f = RbcMc \/ f = Savings
  | EvaluatePolicy => f = RbcIid \/ f = RbcAr1 \/ f = RbcMc
  | ValueIteration => False
  | Egm => f = Savings
  end.
