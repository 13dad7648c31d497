(** The functions of a model and the functions that the algorithms look for: dolo/compiler/model.py 533-554
    and 605-647 (Model.__init__, __compile_functions__, functions), on top of Factories.v. *)
From Coq Require Import String List Bool ZArith.
From Verif Require Import Base.Prelude Base.Dict Model.CompilerMisc Model.Factories Model.ModelObject.
Import ListNotations.
Open Scope string_scope.
Open Scope list_scope.

(** model.py:613-616 *)
Definition function_equivalences : dict string :=
  [("equilibrium", "arbitrage"); ("optimality", "arbitrage")].

Section Compiled.
Context {V : Type}.
Variable reorder : list (sym * expr V) -> res (list (sym * expr V)).
Notation fac := (@factory V).

(** model.py:621-623: the names, in order *)
Definition function_names (m : @source V) : list string :=
  dkeys (src_equations m) ++ match src_definitions m with [] => [] | _ => ["auxiliary"] end.

(** model.py:629-636: dolang's compiler (make_method_from_factory, standard_function) is taken not to raise;
    the function is represented by what it is made from. *)
Fixpoint compile_each (m : @source V) (names : list string) (d : loosy fac) : res (loosy fac) :=
  match names with
  | [] => Ok d
  | n :: r => bind (get_factory reorder m n 0%Z) (fun f => compile_each m r (loosy_setitem d n f))
  end.

(** model.py:605-640 *)
Definition compile_functions (m : @source V) : res (loosy fac) :=
  compile_each m (function_names m) (Loosy [] function_equivalences).

(** The attribute __functions__, None before the first reading (540); __original_gufunctions__ (639) exists
    when it is not None, and has the same entries, without equivalences. *)
Definition state : Type := option (loosy fac).

(** model.py:643-646 *)
Definition read_functions (m : @source V) (st : state) : res (loosy fac) :=
  match st with Some d => Ok d | None => compile_functions m end.

(** model.py:533-552: with [check], x_bounds (783-794) and the functions are read; the other parts of the
    model (calibration, domain, exogenous) are left out. *)
Definition new_model (check : bool) (m : @source V) : res state :=
  if check
  then bind (compile_functions m) (fun d => bind (x_bounds (items d)) (fun _ => Ok (Some d)))
  else Ok None.

(** What is run on a model.  The flag of time iteration says that constraints are imposed. *)
Inductive algorithm : Type :=
| Residuals | Perturb | TimeIteration (constrained : bool) | ImprovedTimeIteration
| EvaluatePolicy | ValueIteration | Egm.

Definition get_all (d : loosy fac) (names : list string) : res (list fac) :=
  map_res (loosy_getitem d) names.

(** The functions looked up, in order: steady_state.py:19-20; perturbation.py:20-21; time_iteration.py:140-145;
    improved_time_iteration.py:295-298; value_iteration.py:301-302; value_iteration.py:51-54; egm.py:44-50
    (an AttributeError when the functions were never read). *)
Definition algorithm_functions (m : @source V) (st : state) (a : algorithm) : res (list fac) :=
  match a with
  | Residuals | Perturb =>
      bind (read_functions m st) (fun d => get_all d ["arbitrage"; "transition"])
  | TimeIteration constrained =>
      bind (read_functions m st) (fun d =>
      bind (get_all d ["arbitrage"; "transition"]) (fun l =>
      if loosy_contains d "arbitrage_lb" && constrained
      then bind (get_all d ["arbitrage_lb"; "arbitrage_ub"]) (fun b => Ok (l ++ b))
      else Ok l))
  | ImprovedTimeIteration =>
      bind (read_functions m st) (fun d =>
      get_all d ["arbitrage"; "transition"; "arbitrage_lb"; "arbitrage_ub"])
  | EvaluatePolicy => bind (read_functions m st) (fun d => get_all d ["value"; "transition"])
  | ValueIteration =>
      bind (read_functions m st) (fun d =>
      get_all d ["transition"; "felicity"; "controls_lb"; "controls_ub"])
  | Egm =>
      match st with
      | None => Err ExcAttribute
      | Some d => get_all (Loosy (items d) [])
          ["expectation"; "half_transition"; "direct_response_egm"; "reverse_state"; "arbitrage_lb"; "arbitrage_ub"]
      end
  end.
End Compiled.
