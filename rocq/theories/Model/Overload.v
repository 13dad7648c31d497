(** Model of the class [overload] of /repo/dolo/misc/multimethod.py (260-287): functions dispatched on the
    predicates given as annotations.  Parameters are positional-or-keyword (no star arguments). *)
From Coq Require Import String List Arith Bool.
From Verif.Base Require Import Prelude Dict.
Import ListNotations.

Section Overload.
  (** Values; predicates are objects compared by identity: a number, and what calling them gives. *)
  Variable V : Type.
  Variable holds : nat -> V -> res bool.

  (** A parameter: its name, its annotation, does it have a default value (the value is not modelled: only
      functions whose defaults are equal are compared equal through it). *)
  Record param : Type := { p_name : string; p_annot : option nat; p_default : option nat }.
  (** [inspect.signature(func)]: parameters and return annotation. *)
  Record sig : Type := { s_params : list param; s_return : option nat }.
  (** A function: [__name__], signature, and what it does with positional and keyword arguments. *)
  Record func : Type := { f_name : string; f_sig : sig; f_run : list V -> dict V -> res V }.

  Definition onat_eqb (a b : option nat) : bool :=
    match a, b with Some x, Some y => Nat.eqb x y | None, None => true | _, _ => false end.
  Definition param_eqb (a b : param) : bool :=
    String.eqb (p_name a) (p_name b) && onat_eqb (p_annot a) (p_annot b) && onat_eqb (p_default a) (p_default b).
  Fixpoint params_eqb (a b : list param) : bool :=
    match a, b with
    | [], [] => true
    | x :: a', y :: b' => param_eqb x y && params_eqb a' b'
    | _, _ => false
    end.
  (** Equality of [inspect.Signature] objects (keys of the dictionary). *)
  Definition osig_eqb (a b : sig) : bool := params_eqb (s_params a) (s_params b) && onat_eqb (s_return a) (s_return b).

  (** The dictionary itself: functions in order of insertion, the signature of each being its key. *)
  Definition table : Type := list (sig * func).
  (** 270-271 [self[inspect.signature(func)] = func]: an equal key keeps its place (and the old key object). *)
  Fixpoint insert (t : table) (f : func) : table :=
    match t with
    | [] => [(f_sig f, f)]
    | (s, g) :: r => if osig_eqb s (f_sig f) then (s, f) :: r else (s, g) :: insert r f
    end.

  (** [sig.bind(args, kwargs).arguments]: positional arguments fill the first parameters, then keywords.
      TypeError: too many arguments, an unknown or already filled keyword, a missing argument. *)
  Fixpoint bind_pos (ps : list param) (args : list V) : res (dict V * list param) :=
    match ps, args with
    | _, [] => Ok ([], ps)
    | [], _ :: _ => Err ExcType
    | p :: ps', a :: args' => bind (bind_pos ps' args') (fun r => Ok ((p_name p, a) :: fst r, snd r))
    end.
  Fixpoint bind_kw (ps : list param) (kwargs : dict V) : res (dict V) :=
    match ps with
    | [] => Ok []
    | p :: ps' =>
        match dget kwargs (p_name p) with
        | Some v => bind (bind_kw ps' kwargs) (fun r => Ok ((p_name p, v) :: r))
        | None => match p_default p with
                  | Some _ => bind_kw ps' kwargs
                  | None => Err ExcType
                  end
        end
    end.
  Definition sig_bind (s : sig) (args : list V) (kwargs : dict V) : res (dict V) :=
    bind (bind_pos (s_params s) args) (fun r =>
    if forallb (fun k => existsb (fun p => String.eqb k (p_name p)) (snd r)) (dkeys kwargs)
    then bind (bind_kw (snd r) kwargs) (fun d => Ok (fst r ++ d)%list)
    else Err ExcType).

  (** [func.__annotations__]: the annotated parameters in order, then the return annotation under "return". *)
  Definition annotations (f : func) : list (string * nat) :=
    flat_map (fun p => match p_annot p with Some q => [(p_name p, q)] | None => [] end) (s_params (f_sig f)) ++
    match s_return (f_sig f) with Some q => [("return"%string, q)] | None => [] end.

  (** 277-280 [all(predicate(arguments[name]) for ...)]: stops at the first predicate that is false. *)
  Fixpoint all_hold (l : list (string * nat)) (arguments : dict V) : res bool :=
    match l with
    | [] => Ok true
    | (name, q) :: r =>
        match dget arguments name with
        | None => Err ExcKey
        | Some v => bind (holds q v) (fun b => if b then all_hold r arguments else Ok false)
        end
    end.

  (** A DispatchError is a TypeError (49-50); it is told apart by its message (282). *)
  Definition dispatch_error : exn := ExcGeneric "DispatchError: No matching functions found".

  (** 273-282 [__call__]; the argument is the reversed list of items. *)
  Fixpoint try_all (l : table) (args : list V) (kwargs : dict V) : res V :=
    match l with
    | [] => Err dispatch_error
    | (s, f) :: r =>
        bind (sig_bind s args kwargs) (fun arguments =>
        bind (all_hold (annotations f) arguments) (fun b =>
        if b then f_run f args kwargs else try_all r args kwargs))
    end.
  Definition call_table (t : table) (args : list V) (kwargs : dict V) : res V := try_all (rev t) args kwargs.

  (** What a name is bound to in the namespace where functions are defined. *)
  Inductive obj : Type :=
  | OverloadObj (t : table)
  | PlainFun (f : func).
  Definition namespace : Type := dict obj.

  (** 265-268 and [type.__call__]: [overload(func)] returns the object already bound to the name of the
      function, and initialises it (270-271) only if it is an [overload]. *)
  Definition overload_new (ns : namespace) (f : func) : obj :=
    match dget ns (f_name f) with
    | Some (OverloadObj t) => OverloadObj (insert t f)
    | Some o => o
    | None => OverloadObj (insert [] f)
    end.

  (** Statements of a module or class body: a plain [def], a decorated one ([@overload]), and
      [@name.register] (284-287), which binds the function's own name to the overload object when the
      names agree, and to the plain function otherwise. *)
  Inductive stmt : Type :=
  | DefPlain (f : func)
  | DefOverload (f : func)
  | DefRegister (name : string) (f : func).
  Definition run_stmt (ns : namespace) (s : stmt) : res namespace :=
    match s with
    | DefPlain f => Ok (dset ns (f_name f) (PlainFun f))
    | DefOverload f => Ok (dset ns (f_name f) (overload_new ns f))
    | DefRegister name f =>
        match dget ns name with
        | None => Err ExcName
        | Some (PlainFun _) => Err ExcAttribute
        | Some (OverloadObj t) =>
            let o := OverloadObj (insert t f) in
            let ns' := dset ns name o in
            Ok (if String.eqb name (f_name f) then ns' else dset ns' (f_name f) (PlainFun f))
        end
    end.
  Fixpoint run_stmts (ns : namespace) (l : list stmt) : res namespace :=
    match l with
    | [] => Ok ns
    | s :: r => bind (run_stmt ns s) (fun ns' => run_stmts ns' r)
    end.

  (** [name(args, kwargs)] in the namespace. *)
  Definition call (ns : namespace) (name : string) (args : list V) (kwargs : dict V) : res V :=
    match dget ns name with
    | None => Err ExcName
    | Some (PlainFun f) => f_run f args kwargs
    | Some (OverloadObj t) => call_table t args kwargs
    end.
End Overload.

Arguments p_name _ : assert.
Arguments Build_func {V}.
Arguments f_name {V}.
Arguments f_sig {V}.
Arguments f_run {V}.
Arguments DefPlain {V}.
Arguments DefOverload {V}.
Arguments DefRegister {V}.
