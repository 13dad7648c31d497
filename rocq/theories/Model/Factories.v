(** Model of dolo/compiler/factories.py (functions of a model from its equations),
    of the new-style branch of SymbolicModel.definitions (dolo/compiler/model.py
    152-205) and of dolo/compiler/eval_formula.py.

    Expressions are syntax trees: parsing and printing (dolang.grammar) are outside
    of the model, and so is the printing of a dated symbol as an identifier
    (stringify_symbol), replaced by the pair itself. *)
From Coq Require Import String List Bool ZArith DecimalString.
From Verif Require Import Base.Prelude Base.Dict.
Import ListNotations.
Open Scope string_scope.
Open Scope list_scope.

(** Names in expressions: an undated name, or a variable at a date. *)
Inductive sym : Type :=
| SPar (s : string)
| SVar (s : string) (t : Z).

Definition sym_dec : forall a b : sym, {a = b} + {a <> b}.
Proof. decide equality; (apply Z.eq_dec || apply string_dec). Defined.

(** Expressions over numbers in V: functions of one argument and operators are
    known by name. *)
Inductive expr (V : Type) : Type :=
| ENum (c : V)
| ESym (x : sym)
| EApp1 (f : string) (a : expr V)
| EApp2 (f : string) (a b : expr V).
Arguments ENum {V}. Arguments ESym {V}. Arguments EApp1 {V}. Arguments EApp2 {V}.

(** dolang.symbolic.time_shift: dates move, undated names stay. *)
Definition shift_sym (k : Z) (x : sym) : sym :=
  match x with SPar s => SPar s | SVar s t => SVar s (t + k) end.
Fixpoint time_shift {V} (k : Z) (e : expr V) : expr V :=
  match e with
  | ENum c => ENum c
  | ESym x => ESym (shift_sym k x)
  | EApp1 f a => EApp1 f (time_shift k a)
  | EApp2 f a b => EApp2 f (time_shift k a) (time_shift k b)
  end.

(** dolang.symbolic.Sanitizer: an undated name which is a variable is read as the
    variable at date 0. *)
Definition sanitize_sym (variables : list string) (x : sym) : sym :=
  match x with
  | SPar s => if existsb (String.eqb s) variables then SVar s 0 else SPar s
  | SVar s t => SVar s t
  end.
Fixpoint sanitize {V} (variables : list string) (e : expr V) : expr V :=
  match e with
  | ENum c => ENum c
  | ESym x => ESym (sanitize_sym variables x)
  | EApp1 f a => EApp1 f (sanitize variables a)
  | EApp2 f a b => EApp2 f (sanitize variables a) (sanitize variables b)
  end.

(** An equation "l = r", or a lone expression. *)
Inductive equation (V : Type) : Type :=
| Lone (e : expr V)
| Equal (l r : expr V).
Arguments Lone {V}. Arguments Equal {V}.

(** ** recipes.yaml 1-144: arguments (group, date, name), and target (group, date)
    of each kind of equations *)
Record spec : Type := Spec {
  sp_target : option (string * Z);
  sp_eqs : list (string * Z * string) }.

Definition recipes (eq_type : string) : option spec :=
  if eq_type =? "arbitrage" then Some (Spec None
    [("exogenous", 0%Z, "m"); ("states", 0%Z, "s"); ("controls", 0%Z, "x");
     ("exogenous", 1%Z, "M"); ("states", 1%Z, "S"); ("controls", 1%Z, "X");
     ("parameters", 0%Z, "p")])
  else if eq_type =? "transition" then Some (Spec (Some ("states", 0%Z))
    [("exogenous", (-1)%Z, "m"); ("states", (-1)%Z, "s"); ("controls", (-1)%Z, "x");
     ("exogenous", 0%Z, "M"); ("parameters", 0%Z, "p")])
  else if eq_type =? "value" then Some (Spec (Some ("values", 0%Z))
    [("exogenous", 0%Z, "m"); ("states", 0%Z, "s"); ("controls", 0%Z, "x"); ("values", 0%Z, "v");
     ("exogenous", 1%Z, "M"); ("states", 1%Z, "S"); ("controls", 1%Z, "X"); ("values", 1%Z, "V");
     ("parameters", 0%Z, "p")])
  else if eq_type =? "expectation" then Some (Spec (Some ("expectations", 0%Z))
    [("exogenous", 1%Z, "M"); ("states", 1%Z, "S"); ("controls", 1%Z, "X"); ("parameters", 0%Z, "p")])
  else if eq_type =? "half_transition" then Some (Spec (Some ("states", 0%Z))
    [("exogenous", (-1)%Z, "m"); ("poststates", (-1)%Z, "a"); ("exogenous", 0%Z, "M");
     ("parameters", 0%Z, "p")])
  else if eq_type =? "direct_response_egm" then Some (Spec (Some ("controls", 0%Z))
    [("exogenous", 0%Z, "m"); ("poststates", 0%Z, "a"); ("expectations", 0%Z, "z");
     ("parameters", 0%Z, "p")])
  else if eq_type =? "reverse_state" then Some (Spec (Some ("states", 0%Z))
    [("exogenous", 0%Z, "m"); ("poststates", 0%Z, "a"); ("controls", 0%Z, "x");
     ("parameters", 0%Z, "p")])
  else if eq_type =? "direct_response" then Some (Spec (Some ("controls", 0%Z))
    [("exogenous", 0%Z, "m"); ("states", 0%Z, "s"); ("expectations", 0%Z, "z");
     ("parameters", 0%Z, "p")])
  else if eq_type =? "felicity" then Some (Spec (Some ("rewards", 0%Z))
    [("exogenous", 0%Z, "m"); ("states", 0%Z, "s"); ("controls", 0%Z, "x"); ("parameters", 0%Z, "p")])
  else if eq_type =? "arbitrage_exp" then Some (Spec None
    [("states", 0%Z, "s"); ("controls", 0%Z, "x"); ("parameters", 0%Z, "p")])
  else None.

(** recipes.yaml 25-29: arguments of the bounds of complementarity conditions *)
Definition bound_spec : spec := Spec None
  [("exogenous", 0%Z, "m"); ("states", 0%Z, "s"); ("parameters", 0%Z, "p")].

(** factories.py 60-69: arguments of auxiliary *)
Definition auxiliary_spec : spec := Spec None
  [("exogenous", 0%Z, "m"); ("states", 0%Z, "s"); ("controls", 0%Z, "x"); ("parameters", 0%Z, "p")].

(** factories.py 58-79: the specification chosen for a kind of equations *)
Definition chosen_spec (eq_type : string) : option spec :=
  if eq_type =? "auxiliary" then Some auxiliary_spec
  else if (eq_type =? "arbitrage_lb") || (eq_type =? "arbitrage_ub") then Some bound_spec
  else recipes eq_type.

(** factories.py 39-48: shift_spec *)
Definition shift_spec (sp : spec) (k : Z) : spec :=
  Spec (option_map (fun e => (fst e, snd e + k)%Z) (sp_target sp))
       (map (fun e : string * Z * string =>
               if fst (fst e) =? "parameters" then e
               else (fst (fst e), (snd (fst e) + k)%Z, snd e)) (sp_eqs sp)).

(** factories.py 83-86: dates at which definitions are included. A Python set: the
    order is irrelevant since definitions are sorted at the end. *)
Definition group_dates (g : string) (sp : spec) : list Z :=
  map (fun e : string * Z * string => snd (fst e))
      (filter (fun e : string * Z * string => fst (fst e) =? g) (sp_eqs sp)).
Definition preamble_dates (sp : spec) : list Z :=
  nodup Z.eq_dec
    (filter (fun t => existsb (Z.eqb t) (group_dates "controls" sp)) (group_dates "states" sp)).

(** Assignment in a dictionary whose keys are symbols. *)
Section SymDict.
Context {X : Type}.
Fixpoint sset (d : list (sym * X)) (k : sym) (v : X) : list (sym * X) :=
  match d with
  | [] => [(k, v)]
  | (k', v') :: r => if sym_dec k k' then (k', v) :: r else (k', v') :: sset r k v
  end.
Definition sdict (l : list (sym * X)) : list (sym * X) :=
  fold_left (fun d e => sset d (fst e) (snd e)) l [].
End SymDict.

Section Factory.
Context {V : Type}.

(** dolang.factory.FlatFunctionFactory *)
Record factory : Type := Factory {
  ff_preamble : list (sym * expr V);
  ff_content : list (sym * expr V);
  ff_arguments : dict (list sym) }.

(** What get_factory reads of a model; definitions are keyed by variables at
    date 0 (model.py 177-180, 237). *)
Record source : Type := Source {
  src_symbols : dict (list string);
  src_equations : dict (list (equation V));
  src_definitions : dict (expr V) }.

(** model.py 32-40: variables *)
Definition src_variables (m : source) : list string :=
  concat (map snd (filter (fun e => negb (fst e =? "parameters")) (src_symbols m))).

Definition lookup {X} (d : dict X) (k : string) : res X :=
  match dget d k with Some x => Ok x | None => Err ExcKey end.

Fixpoint map_res {A B} (f : A -> res B) (l : list A) : res (list B) :=
  match l with
  | [] => Ok []
  | a :: r => bind (f a) (fun b => bind (map_res f r) (fun bs => Ok (b :: bs)))
  end.

(** factories.py 58-71: the equations *)
Definition chosen_equations (m : source) (eq_type : string) : res (list (equation V)) :=
  if eq_type =? "auxiliary"
  then bind (lookup (src_symbols m) "auxiliaries") (fun l =>
         Ok (map (fun s => Lone (ESym (SPar s))) l))
  else lookup (src_equations m) eq_type.

(** factories.py 88-94: names of the arguments of a group *)
Definition group_symbols (m : source) (e : string * Z * string) : res (list sym) :=
  bind (lookup (src_symbols m) (fst (fst e))) (fun l =>
    Ok (map (fun s => if fst (fst e) =? "parameters" then SPar s else SVar s (snd (fst e))) l)).

(** factories.py 96: arguments, a dictionary *)
Definition make_arguments (sp : spec) (args : list (list sym)) : dict (list sym) :=
  fold_left (fun d e => dset d (fst e) (snd e)) (combine (map snd (sp_eqs sp)) args) [].

(** "out{}".format(i) *)
Definition out_name (i : nat) : string :=
  ("out" ++ NilZero.string_of_uint (Nat.to_uint i))%string.

(** factories.py 101-109: right-hand sides and targets if the kind has a target,
    and otherwise right minus left *)
Definition rhs_of (q : equation V) : res (expr V) :=
  match q with Equal _ r => Ok r | Lone _ => Err ExcIndex end.
Definition residual_of (q : equation V) : expr V :=
  match q with Equal l r => EApp2 "-" r l | Lone e => e end.
Definition make_content (m : source) (sp : spec) (eqs : list (equation V))
  : res (list sym * list (expr V)) :=
  match sp_target sp with
  | Some (g, t) =>
      bind (lookup (src_symbols m) g) (fun l =>
      bind (map_res rhs_of eqs) (fun es =>
        Ok (map (fun s => SVar s t) l, es)))
  | None => Ok (map (fun i => SVar (out_name i) 0) (seq 0 (List.length eqs)), map residual_of eqs)
  end.

(** factories.py 126-137: the definitions, at each date *)
Definition make_definitions (m : source) (dates : list Z) : list (sym * expr V) :=
  sdict (flat_map (fun d : string * expr V =>
           map (fun t => (SVar (fst d) t, time_shift t (snd d))) dates) (src_definitions m)).

(** factories.py 51-144: get_factory. [reorder] stands for reorder_preamble (25-36),
    whose order comes from dolang's triangular_solver. *)
Definition get_factory (reorder : list (sym * expr V) -> res (list (sym * expr V)))
  (m : source) (eq_type : string) (k : Z) : res factory :=
  bind (chosen_equations m eq_type) (fun eqs =>
  bind (match chosen_spec eq_type with Some sp => Ok sp | None => Err ExcKey end) (fun sp0 =>
  let sp := shift_spec sp0 k in
  bind (map_res (group_symbols m) (sp_eqs sp)) (fun args =>
  bind (make_content m sp eqs) (fun c =>
  let es := map (fun e => time_shift k (sanitize (src_variables m) e)) (snd c) in
  bind (reorder (make_definitions m (preamble_dates sp))) (fun preamble =>
  Ok (Factory preamble (sdict (combine (fst c) es)) (make_arguments sp args))))))).

(** ** Calling the compiled function (dolang.function_compiler, external): the
    arguments are unpacked, definitions computed in their order, then the
    equations. [keep] says whether the value of an equation is visible, under the
    name of its target, to the equations below. *)
Variable op1 : string -> V -> res V.
Variable op2 : string -> V -> V -> res V.

Definition env : Type := sym -> option V.
Definition set_env (r : env) (x : sym) (v : V) : env :=
  fun y => if sym_dec y x then Some v else r y.

Fixpoint eval (r : env) (e : expr V) : res V :=
  match e with
  | ENum c => Ok c
  | ESym x => match r x with Some v => Ok v | None => Err ExcName end
  | EApp1 f a => bind (eval r a) (op1 f)
  | EApp2 f a b => bind (eval r a) (fun x => bind (eval r b) (op2 f x))
  end.

Fixpoint unpack (names : list sym) (v : list V) (r : env) : res env :=
  match names, v with
  | [], _ => Ok r
  | n :: ns, x :: xs => unpack ns xs (set_env r n x)
  | _ :: _, [] => Err ExcIndex
  end.
Fixpoint unpack_all (groups : list (list sym)) (args : list (list V)) (r : env) : res env :=
  match groups, args with
  | [], [] => Ok r
  | g :: gs, a :: ar => bind (unpack g a r) (unpack_all gs ar)
  | _, _ => Err ExcType
  end.

Fixpoint run_definitions (r : env) (l : list (sym * expr V)) : res env :=
  match l with
  | [] => Ok r
  | (x, e) :: l' => bind (eval r e) (fun v => run_definitions (set_env r x v) l')
  end.

Fixpoint run_content (keep : bool) (r : env) (l : list (sym * expr V)) : res (list V) :=
  match l with
  | [] => Ok []
  | (x, e) :: l' =>
      bind (eval r e) (fun v =>
      bind (run_content keep (if keep then set_env r x v else r) l') (fun vs => Ok (v :: vs)))
  end.

Definition call (keep : bool) (f : factory) (args : list (list V)) : res (list V) :=
  bind (unpack_all (map snd (ff_arguments f)) args (fun _ => None)) (fun r =>
  bind (run_definitions r (ff_preamble f)) (fun r' => run_content keep r' (ff_content f))).

End Factory.

(** ** model.py 152-205: the checks on a new-style block of definitions *)
Section Definitions.
Context {V : Type}.

(** symbols of an expression (dolang.list_symbols) *)
Fixpoint expr_symbols (e : expr V) : list sym :=
  match e with
  | ENum _ => []
  | ESym x => [x]
  | EApp1 _ a => expr_symbols a
  | EApp2 _ a b => expr_symbols a ++ expr_symbols b
  end.

Definition str_in (s : string) (l : list string) : bool := existsb (String.eqb s) l.

(** 184-198: the right-hand side; all parameters first, then all variables *)
Definition check_parameter (vars params : list string) (x : sym) : res unit :=
  match x with
  | SPar p => if str_in p vars then Err (ExcGeneric "defined as a variable")
              else if negb (str_in p params) then Err (ExcGeneric "must be defined as a model symbol")
              else Ok tt
  | SVar _ _ => Ok tt
  end.
Definition check_variable (vars : list string) (x : sym) : res unit :=
  match x with
  | SVar v _ => if str_in v vars then Ok tt else Err (ExcGeneric "Variable is not defined")
  | SPar _ => Ok tt
  end.
Fixpoint check_all (f : sym -> res unit) (l : list sym) : res unit :=
  match l with [] => Ok tt | x :: r => bind (f x) (fun _ => check_all f r) end.

(** 166-202: the loop; a line is (name, date, right-hand side). Gives the auxiliaries
    and the definitions. *)
Fixpoint read_definitions (vars params : list string) (lines : list (string * Z * expr V))
  : res (list string * dict (expr V)) :=
  match lines with
  | [] => Ok ([], [])
  | (name, date, rhs) :: r =>
      if str_in name vars then Err (ExcGeneric "already defined")
      else if negb (Z.eqb date 0) then Err (ExcGeneric "must be defined at date t")
      else
        bind (check_all (check_parameter vars params) (expr_symbols rhs)) (fun _ =>
        bind (check_all (check_variable vars) (expr_symbols rhs)) (fun _ =>
        bind (read_definitions (vars ++ [name]) params r) (fun p =>
          Ok (name :: fst p, (name, rhs) :: snd p))))
  end.

End Definitions.

(** ** eval_formula.py 11-51. A table has [T] rows and named columns; values outside
    of the table are nan. Formulas are evaluated row by row, as operations between
    pandas series of a same index are. [known] is the context. *)
Section Formula.
Context {V : Type}.
Variables (op1 : string -> V -> res V) (op2 : string -> V -> V -> res V) (nan : V).

(** pandas.Series.shift(t): row i holds the value of row i - t *)
Definition pd_shift (T : nat) (col : nat -> V) (t : Z) : nat -> V := fun i =>
  let j := (Z.of_nat i - t)%Z in
  if (0 <=? j)%Z && (j <? Z.of_nat T)%Z then col (Z.to_nat j) else nan.

(** 44-47: the names of the formula in row i; a variable which is not a column is a
    KeyError, and an unknown name a NameError; the undated name t is spelled t_ (dolang.stringify),
    which line 45 sets to the index.  See FormulaCall.v for the dictionary of names itself. *)
Fixpoint check_columns (table : dict (nat -> V)) (l : list sym) : res unit :=
  match l with
  | [] => Ok tt
  | SVar s _ :: r => if dmem table s then check_columns table r else Err ExcKey
  | SPar _ :: r => check_columns table r
  end.
Definition formula_env (T : nat) (table : dict (nat -> V)) (known : dict V) (index : nat -> V)
  (i : nat) : @env V := fun x =>
  match x with
  | SPar s => if s =? "t" then Some (index i) else dget known s
  | SVar s t => match dget table s with Some col => Some (pd_shift T col t i) | None => None end
  end.

(** with a dataframe: the series, as the list of its rows (a formula without any
    variable gives a scalar in Python, here repeated in each row) *)
Definition eval_formula_table (T : nat) (table : dict (nat -> V)) (known : dict V)
  (index : nat -> V) (e : expr V) : res (list V) :=
  bind (check_columns table (expr_symbols e)) (fun _ =>
    map_res (fun i => eval op1 op2 (formula_env T table known index i) e) (seq 0 T)).

(** without a dataframe *)
Definition eval_formula (known : dict V) (e : expr V) : res V :=
  eval op1 op2 (fun x => match x with SPar s => dget known s | SVar _ _ => None end) e.

End Formula.
