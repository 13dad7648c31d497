(** Vocabulary for what the shipped model files promise. *)
From Coq Require Import String Reals List ZArith Permutation.
From Verif Require Import Base.Prelude Base.Dict Model.CompilerMisc Model.Factories Spec.Factories
  Model.ModelObject Spec.ModelObject Model.Examples.
Import ListNotations.
Open Scope string_scope.
Open Scope list_scope.

(** dolang's triangular solver is right: see [solves_systems]. *)
Definition right_solver (solve : dict formula -> res (dict num)) : Prop :=
  solves_systems (fun e sol v => eval_formula num_op1 num_op2 sol e = Ok v) solve.

(** The sorting of definitions gives an order in which they can be computed, and finds one whenever
    there is one. *)
Definition right_order (reorder : list (sym * formula) -> res (list (sym * formula))) : Prop :=
  sorts reorder /\
  forall l l', Permutation l l' -> triangular l' -> exists l'', reorder l = Ok l''.

(** The name has this (real) value. *)
Definition has (sol : dict num) (name : string) (r : R) : Prop := dget sol name = Some (Some r).

(** The names set by the user are none of these. *)
Definition leaves (kwargs : dict formula) (names : list string) : Prop :=
  forall k, In k (dkeys kwargs) -> ~ In k names.

Definition reals (l : list R) : list num := map Some l.

(** Output of the RBC economy *)
Definition output (alpha z k n : R) : R := (exp z * Rpower k alpha * Rpower n (1 - alpha))%R.

(** The four RBC files, and how the shock [e] (or the variable p), productivity [z] and capital [k]
    are shared between their exogenous variables and their states. *)
Inductive version : Type := Plain | Iid | Ar1 | Mc.
Definition rbc_version (v : version) : file :=
  match v with Plain => rbc_file | Iid => rbc_iid_file | Ar1 => rbc_ar1_file | Mc => rbc_mc_file end.
Definition exogenous_of (v : version) (e z : R) : list num :=
  match v with Plain | Iid => reals [e] | Ar1 => reals [z] | Mc => reals [z; e] end.
Definition states_of (v : version) (z k : R) : list num :=
  match v with Plain | Iid => reals [z; k] | _ => reals [k] end.

(** The parameters, in the order of the files *)
Record economy : Type := Economy {
  beta : R; sigma : R; eta : R; chi : R; delta : R; alpha : R; rho : R; zbar : R; sig_z : R }.
Definition parameters_of (p : economy) : list num :=
  reals [beta p; sigma p; eta p; chi p; delta p; alpha p; rho p; zbar p; sig_z p].

Section Economics.
Local Open Scope R_scope.
Variable p : economy.
(** Consumption *)
Definition consumption (z k n i : R) : R := output (alpha p) z k n - i.
(** Marginal disutility of labour in units of consumption, minus the wage *)
Definition labour_gap (z k n i : R) : R :=
  chi p * Rpower n (eta p) * Rpower (consumption z k n i) (sigma p)
  - (1 - alpha p) * output (alpha p) z k n / n.
(** Gross return of one unit of capital *)
Definition gross_return (z k n : R) : R := 1 - delta p + alpha p * output (alpha p) z k n / k.
(** What a unit of the good invested today brings tomorrow, in utility *)
Definition discounted (z' k' n' i' : R) : R :=
  beta p * Rpower (consumption z' k' n' i') (- sigma p) * gross_return z' k' n'.
(** Utility of one period *)
Definition utility (z k n i : R) : R :=
  Rpower (consumption z k n i) (1 - sigma p) / (1 - sigma p)
  - chi p * Rpower n (1 + eta p) / (1 + eta p).
End Economics.

(** Mean of [f] under a law with finitely many outcomes: weights, and outcomes *)
Definition mean {A} (f : A -> R) (law : list (R * A)) : R :=
  fold_right (fun o acc => fst o * f (snd o) + acc)%R 0%R law.
Definition total {A} (law : list (R * A)) : R := mean (fun _ => 1%R) law.

(** All residuals are zero. *)
Definition all_zero (r : dict (list num)) : Prop :=
  forall name l x, In (name, l) r -> In x l -> x = Some 0%R.

(** The equations for values, for expectations and for controls, at the calibrated values. *)
Section AtRest.
Variable reorder : list (sym * formula) -> res (list (sym * formula)).
Variable keep : bool.
Definition rest_value (f : file) (sol : dict num) : res (list num) :=
  bind (calibrated f sol "exogenous") (fun m => bind (calibrated f sol "states") (fun s =>
  bind (calibrated f sol "controls") (fun x => bind (calibrated f sol "values") (fun v =>
  bind (calibrated f sol "parameters") (fun p =>
  model_function reorder keep f "value" [m; s; x; v; m; s; x; v; p]))))).
Definition rest_expectation (f : file) (sol : dict num) : res (list num) :=
  bind (calibrated f sol "exogenous") (fun m => bind (calibrated f sol "states") (fun s =>
  bind (calibrated f sol "controls") (fun x => bind (calibrated f sol "parameters") (fun p =>
  model_function reorder keep f "expectation" [m; s; x; p])))).
Definition rest_response (f : file) (sol : dict num) : res (list num) :=
  bind (calibrated f sol "exogenous") (fun m => bind (calibrated f sol "states") (fun s =>
  bind (calibrated f sol "expectations") (fun e => bind (calibrated f sol "parameters") (fun p =>
  model_function reorder keep f "direct_response" [m; s; e; p])))).
End AtRest.

(** Their domain sections *)
Definition version_domain (v : version) : section formula num :=
  match v with Plain => rbc_domain | Iid => rbc_iid_domain | Ar1 => rbc_ar1_domain | Mc => rbc_mc_domain end.

(** The value of the variable is in its interval of the domain. *)
Definition inside (dom : dict (num * num)) (name : string) (sol : dict num) : Prop :=
  exists lo hi x, dget dom name = Some (Some lo, Some hi) /\ has sol name x /\ (lo <= x <= hi)%R.
