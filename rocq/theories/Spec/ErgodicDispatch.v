(** Which calls of [ergodic_distribution] make sense. *)
From Coq Require Import String List Arith.
From Verif.Model Require Import ErgodicDispatch Discretize.
Import ListNotations.
Local Open Scope string_scope.

(** The first arguments are instances of the given classes. *)
Fixpoint instances {cls obj} (sub : cls -> cls -> bool) (class_of : obj -> cls) (cs : list cls) (args : list obj) : Prop :=
  match cs, args with
  | [], _ => True
  | c :: cs', a :: args' => sub (class_of a) c = true /\ instances sub class_of cs' args'
  | _ :: _, [] => False
  end.

(** Five positional arguments and possibly the keyword compute_mu, or six positional arguments. *)
Definition complete {obj} (args : list obj) (kws : list (string * obj)) : Prop :=
  (length args = 5%nat /\ (kws = [] \/ exists v, kws = [("compute_mu", v)])) \/ (length args = 6%nat /\ kws = []).

(** The classes of a discretised process and of its attribute [grid] (processes.py:176-179, 214-216, 260-262; the grid of
    [mc_to_gdp] is None). *)
Definition process_class (o : out) (c : kls) : Prop :=
  match o with OIid _ => c = KFinite \/ c = KEquiprobable | OChain _ => c = KChain | OGdp _ => c = KGdp | ONone => c = KNone end.
Definition grid_class (o : out) (c : kls) : Prop :=
  match o with OIid _ => c = KEmptyGrid | OChain _ => c = KUnstructured | OGdp _ => c = KNone | ONone => False end.
