(** Properties of overloaded functions (dolo/misc/multimethod.py, class overload): C110. *)
From Coq Require Import String List Arith Bool Lia.
From Verif.Base Require Import Prelude Dict.
From Verif.Model Require Import Overload.
From Verif.Spec Require Import Overload.
From Verif.Proofs Require Import OverloadProofs.
Import ListNotations.

(** C110. For every sequence of definitions in a namespace where the name is new, and every call whose annotations can be
    checked against each registered function: the call runs the last registered function that accepts the arguments,
    and raises DispatchError when there is none.  Signatures are assumed different. *)
Theorem C110_dispatch_partial : forall V holds name ns l ns' args kw,
    dget ns name = None -> Forall (keeps V name) l -> run_stmts V ns l = Ok ns' ->
    NoDup (map f_sig (registered V name l)) -> registered V name l <> [] ->
    Forall (distinct_params V) (registered V name l) ->
    Forall (fun f => checkable V holds f args kw) (registered V name l) ->
    (exists l1 f l2, registered V name l = l1 ++ f :: l2 /\ accepts V holds f args kw /\
       (forall g, In g l2 -> ~ accepts V holds g args kw) /\ call V holds ns' name args kw = f_run f args kw) \/
    ((forall g, In g (registered V name l) -> ~ accepts V holds g args kw) /\
     call V holds ns' name args kw = Err dispatch_error).
Proof. exact overload_dispatch. Qed.
Print Assumptions C110_dispatch_partial.

(** The hypotheses are met by a program with two functions, for every argument. *)
Example C110_example : forall v,
  exists l ns', run_stmts nat [] l = Ok ns' /\ Forall (keeps nat "f") l /\ length (registered nat "f" l) = 2 /\
    NoDup (map f_sig (registered nat "f" l)) /\ Forall (distinct_params nat) (registered nat "f" l) /\
    Forall (fun f => checkable nat toy_holds f [v] []) (registered nat "f" l) /\
    call nat toy_holds ns' "f" [v] [] = Ok (if Nat.ltb 10 v then 2 else 1).
Proof. exact overload_example. Qed.

(** When signatures are defined several times, each signature keeps the place of its first definition and runs the last
    function given to it: among these functions the last accepting one is run. *)
Theorem C110_redefinition : forall V holds name ns l ns' args kw,
    dget ns name = None -> Forall (keeps V name) l -> run_stmts V ns l = Ok ns' -> registered V name l <> [] ->
    Forall (distinct_params V) (registered V name l) ->
    Forall (fun f => checkable V holds f args kw) (registered V name l) ->
    exists eff, ranked V (registered V name l) eff /\
      ((exists l1 f l2, eff = l1 ++ f :: l2 /\ accepts V holds f args kw /\
          (forall g, In g l2 -> ~ accepts V holds g args kw) /\ call V holds ns' name args kw = f_run f args kw) \/
       ((forall g, In g eff -> ~ accepts V holds g args kw) /\ call V holds ns' name args kw = Err dispatch_error)).
Proof. exact overload_redefinition. Qed.
Print Assumptions C110_redefinition.

(** Refuted in general: a function with another number of parameters, registered later, makes the call raise TypeError
    although an earlier function accepts it. *)
Theorem C110_arity_refuted : exists l ns', run_stmts nat [] l = Ok ns' /\
  (exists f, In f (registered nat "f" l) /\ callable_with nat (f_sig f) [5] [] /\ accepts nat toy_holds f [5] []) /\
  call nat toy_holds ns' "f" [5] [] = Err ExcType.
Proof. exact overload_arity. Qed.
Print Assumptions C110_arity_refuted.

(** Refuted: a function whose return value is annotated raises KeyError for all the arguments that it accepts. *)
Theorem C110_return_refuted : forall V holds f args kw q, distinct_params V f -> s_return (f_sig f) = Some q ->
    (forall p, In p (s_params (f_sig f)) -> p_name p <> "return"%string) ->
    callable_with V (f_sig f) args kw -> accepts V holds f args kw ->
    call_table V holds (insert V [] f) args kw = Err ExcKey.
Proof. exact overload_return. Qed.
Print Assumptions C110_return_refuted.

(** Refuted: a function registered again with the same signature keeps its old rank. *)
Theorem C110_redefined_refuted : exists f g f' ns',
  run_stmts nat [] [DefOverload f; DefOverload g; DefOverload f'] = Ok ns' /\
  f_name f = "f"%string /\ f_name g = "f"%string /\ f_name f' = "f"%string /\ checkable nat toy_holds f' [20] [] /\
  accepts nat toy_holds f' [20] [] /\ f_run f' [20] [] = Ok 3 /\ call nat toy_holds ns' "f" [20] [] = Ok 2.
Proof. exact overload_redefined. Qed.
Print Assumptions C110_redefined_refuted.

(** Refuted: decorating a function whose name is already a plain function drops it. *)
Theorem C110_shadowed_refuted : forall V holds ns f g args kw, f_name f = f_name g ->
    exists ns', run_stmts V ns [DefPlain f; DefOverload g] = Ok ns' /\ call V holds ns' (f_name g) args kw = f_run f args kw.
Proof. exact overload_shadowed. Qed.
Print Assumptions C110_shadowed_refuted.
