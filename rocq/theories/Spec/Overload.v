(** What a user expects of overloaded functions. *)
From Coq Require Import String List Arith Bool.
From Verif.Base Require Import Prelude Dict.
From Verif.Model Require Import Overload.
Import ListNotations.

Section Spec.
  Variable V : Type.
  Variable holds : nat -> V -> res bool.

  (** The parameter number [i] of a function receives [v]: from its position, or else by its name. *)
  Definition receives (ps : list param) (args : list V) (kwargs : dict V) (i : nat) (v : V) : Prop :=
    nth_error args i = Some v \/
    (length args <= i /\ exists p, nth_error ps i = Some p /\ dget kwargs (p_name p) = Some v).

  (** Python's rules: the call [f(args, kwargs)] is well formed. *)
  Definition callable_with (s : sig) (args : list V) (kwargs : dict V) : Prop :=
    length args <= length (s_params s) /\
    (forall k, In k (dkeys kwargs) -> exists i p, length args <= i /\ nth_error (s_params s) i = Some p /\ p_name p = k) /\
    (forall i p, length args <= i -> nth_error (s_params s) i = Some p ->
       p_default p <> None \/ exists v, dget kwargs (p_name p) = Some v).

  (** The function accepts the arguments: every annotated parameter receives a value that satisfies its predicate. *)
  Definition accepts (f : func V) (args : list V) (kwargs : dict V) : Prop :=
    forall i p q, nth_error (s_params (f_sig f)) i = Some p -> p_annot p = Some q ->
      exists v, receives (s_params (f_sig f)) args kwargs i v /\ holds q v = Ok true.

  (** A well-formed function: distinct parameter names. *)
  Definition distinct_params (f : func V) : Prop := NoDup (map p_name (s_params (f_sig f))).

  (** A call for which the annotations of [f] can be checked: it is well formed for [f], the annotated parameters are
      given, the predicates answer, and the return value is not annotated. *)
  Definition checkable (f : func V) (args : list V) (kwargs : dict V) : Prop :=
    callable_with (f_sig f) args kwargs /\ s_return (f_sig f) = None /\
    forall i p q, nth_error (s_params (f_sig f)) i = Some p -> p_annot p = Some q ->
      exists v b, receives (s_params (f_sig f)) args kwargs i v /\ holds q v = Ok b.

  (** The functions that a program registers under a name, in order. *)
  Definition registered (name : string) (l : list (stmt V)) : list (func V) :=
    flat_map (fun s => match s with
      | DefPlain _ => []
      | DefOverload f => if String.eqb (f_name f) name then [f] else []
      | DefRegister n f => if String.eqb n name then [f] else []
      end) l.
  (** The functions that stay callable when signatures are defined again, in the order in which their signatures were first
      defined: for each signature, the last function registered with it. *)
  Definition ranked (rs eff : list (func V)) : Prop :=
    NoDup (map f_sig eff) /\
    (forall f, In f eff -> exists a b, rs = a ++ f :: b /\ ~ In (f_sig f) (map f_sig b)) /\
    (forall g, In g rs -> In (f_sig g) (map f_sig eff)) /\
    (forall a f b g c, eff = a ++ f :: b ++ g :: c ->
       exists r1 f0 r2, rs = r1 ++ f0 :: r2 /\ f_sig f0 = f_sig f /\ ~ In (f_sig g) (map f_sig r1)).
  (** No statement gives the name another meaning. *)
  Definition keeps (name : string) (s : stmt V) : Prop :=
    match s with
    | DefPlain f => f_name f <> name
    | DefOverload _ => True
    | DefRegister n f => f_name f = name -> n = name
    end.
End Spec.
