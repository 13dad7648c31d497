(** How a call of [ergodic_distribution] reaches one of its versions: dolo/algos/ergodic.py:137-218 with
    dolo/misc/multimethod.py:39-46, 129-140, 186-201.  What the versions compute is in Model/Ergodic.v. *)
From Coq Require Import String List Arith Bool.
From Verif.Base Require Import Prelude.
From Verif.Model Require Import Multimethod.
Import ListNotations.
Local Open Scope string_scope.

(** Python's binding of arguments to the parameters of a function without star parameters: [n] positional arguments and the
    (distinct) keywords [kws]. *)
Definition binds (required optional : list string) (n : nat) (kws : list string) : bool :=
  let params := (required ++ optional)%list in
  Nat.leb n (length params) &&
  forallb (fun k => existsb (String.eqb k) (skipn n params)) kws &&
  forallb (fun p => existsb (String.eqb p) kws) (skipn n required).

Section Dispatch.
  Variable cls : Type.
  Variable cls_eqb : cls -> cls -> bool.
  Variable sub : cls -> cls -> bool.
  Variable mro : cls -> list cls.
  Variable object : cls.
  (** The classes in the annotations (imported in lines 12-16). *)
  Variables model rule unstructured uniform chain empty cartesian law : cls.

  (** 138, 143-150, 211-218: get_types (multimethod.py:39-46) stops at the last annotated parameter, so that [compute_mu] is
      in no signature. *)
  Definition sig_rule : list cls := [model; rule].
  Definition sig_chain : list cls := [model; rule; unstructured; uniform; chain].
  Definition sig_law : list cls := [model; rule; empty; cartesian; law].

  (** The versions, in the order of the file; all have the same name, hence belong to the same multimethod (129-140). *)
  Definition registrations : list (event cls) :=
    [Register cls sig_rule 1; Register cls sig_chain 2; Register cls sig_law 3]%nat.

  (** Objects, their class (the answer of [type]: no signature is generic, so that multimethod.get_type stays [type]), and the
      attributes exo_grid, endo_grid and dprocess of decision rules. *)
  Variable obj : Type.
  Variable class_of : obj -> cls.
  Variables exo_grid endo_grid dprocess : obj -> obj.

  (** The body which is run, with its positional and keyword arguments. *)
  Inductive body : Type := ForChain (args : list obj) (kws : list (string * obj)) | ForLaw (args : list obj) (kws : list (string * obj)).

  Definition grid_params : list string := ["model"; "dr"; "exo_grid"; "endo_grid"; "dp"].

  (** multimethod.py:199-201 and the call of the function found.  [fuel] is the interpreter's recursion limit. *)
  Fixpoint invoke (fuel : nat) (t : table cls) (args : list obj) (kws : list (string * obj)) : res body * table cls :=
    match fuel with
    | O => (Err ExcRuntime, t)
    | S fuel' =>
        match call cls cls_eqb sub mro object t (map class_of args) with
        | (Err e, t') => (Err e, t')
        | (Ok f, t') =>
            match f with
            | 1%nat =>                                                        (* 138-139 *)
                if binds ["model"; "dr"] [] (length args) (map fst kws) then
                  match args with
                  | [m; dr] => invoke fuel' t' [m; dr; exo_grid dr; endo_grid dr; dprocess dr] []
                  | _ => (Err ExcType, t')
                  end
                else (Err ExcType, t')
            | 2%nat =>                                                        (* 143-150 *)
                if binds grid_params ["compute_mu"] (length args) (map fst kws) then (Ok (ForChain args kws), t') else (Err ExcType, t')
            | _ =>                                                            (* 211-218 *)
                if binds grid_params ["compute_mu"] (length args) (map fst kws) then (Ok (ForLaw args kws), t') else (Err ExcType, t')
            end
        end
    end.

  (** The table after the module is imported and some calls have been made. *)
  Definition imported : table cls := run cls cls_eqb sub mro object registrations.
  Definition after (fuel : nat) (hist : list (list obj * list (string * obj))) : table cls :=
    fold_left (fun t c => snd (invoke fuel t (fst c) (snd c))) hist imported.
  (** What a call gives. *)
  Definition ergodic_call (fuel : nat) (hist : list (list obj * list (string * obj))) (args : list obj) (kws : list (string * obj)) : res body :=
    fst (invoke fuel (after fuel hist) args kws).
End Dispatch.

(* ------------------------------------------------------------------ *)
(** ** The classes of the package *)

(** Classes which are arguments of [ergodic_distribution] or their bases; [KOther n] is any class unrelated to them. *)
Inductive kls : Type :=
| KObject | KSymbolicModel | KModel
| KCallableRule | KRule | KConstantRule | KCustomRule
| KGrid | KProductGrid | KGeneric | KEmptyGrid | KPointGrid | KUnstructured | KCartesian | KUniform | KNonUniform | KSmolyak
| KProcess | KDiscreteProcess | KIIDProcess | KDistribution | KDiscretized | KDiscretizedIID
| KGdp | KChain | KDiscreteDistribution | KEquiprobable | KFinite | KBernouilli
| KNone | KBool | KOther (n : nat).

Definition kls_eqb (a b : kls) : bool :=
  match a, b with
  | KObject, KObject | KSymbolicModel, KSymbolicModel | KModel, KModel
  | KCallableRule, KCallableRule | KRule, KRule | KConstantRule, KConstantRule | KCustomRule, KCustomRule
  | KGrid, KGrid | KProductGrid, KProductGrid | KGeneric, KGeneric | KEmptyGrid, KEmptyGrid | KPointGrid, KPointGrid
  | KUnstructured, KUnstructured | KCartesian, KCartesian | KUniform, KUniform | KNonUniform, KNonUniform | KSmolyak, KSmolyak
  | KProcess, KProcess | KDiscreteProcess, KDiscreteProcess | KIIDProcess, KIIDProcess | KDistribution, KDistribution
  | KDiscretized, KDiscretized | KDiscretizedIID, KDiscretizedIID
  | KGdp, KGdp | KChain, KChain | KDiscreteDistribution, KDiscreteDistribution | KEquiprobable, KEquiprobable
  | KFinite, KFinite | KBernouilli, KBernouilli | KNone, KNone | KBool, KBool => true
  | KOther n, KOther m => Nat.eqb n m
  | _, _ => false
  end.

(** The resolution orders, from the class statements: model.py:8, 530; decision_rule.py:54, 81, 469, 495; grids.py:20-164;
    processes.py:65-235; distribution.py:59, 104, 142, 192, 277.  The decorator language_element (package dolang) is
    taken to return the class. *)
Definition kls_mro (c : kls) : list kls :=
  match c with
  | KObject => [KObject]
  | KModel => [KModel; KSymbolicModel; KObject]
  | KRule => [KRule; KCallableRule; KObject]
  | KConstantRule => [KConstantRule; KCallableRule; KObject]
  | KCustomRule => [KCustomRule; KCallableRule; KObject]
  | KProductGrid => [KProductGrid; KGrid; KGeneric; KObject]
  | KEmptyGrid => [KEmptyGrid; KGrid; KObject]
  | KPointGrid => [KPointGrid; KGrid; KObject]
  | KUnstructured => [KUnstructured; KGrid; KObject]
  | KCartesian => [KCartesian; KGrid; KObject]
  | KUniform => [KUniform; KCartesian; KGrid; KObject]
  | KNonUniform => [KNonUniform; KCartesian; KGrid; KObject]
  | KSmolyak => [KSmolyak; KGrid; KObject]
  | KDiscreteProcess => [KDiscreteProcess; KProcess; KObject]
  | KIIDProcess => [KIIDProcess; KProcess; KObject]
  | KDistribution => [KDistribution; KIIDProcess; KProcess; KObject]
  | KDiscretizedIID => [KDiscretizedIID; KDiscretized; KObject]
  | KGdp => [KGdp; KDiscretized; KObject]
  | KChain => [KChain; KDiscretized; KDiscreteProcess; KProcess; KObject]
  | KDiscreteDistribution => [KDiscreteDistribution; KDistribution; KIIDProcess; KProcess; KDiscretizedIID; KDiscretized; KObject]
  | KEquiprobable => [KEquiprobable; KDiscreteDistribution; KDistribution; KIIDProcess; KProcess; KDiscretizedIID; KDiscretized; KObject]
  | KFinite => [KFinite; KDiscreteDistribution; KDistribution; KIIDProcess; KProcess; KDiscretizedIID; KDiscretized; KObject]
  | KBernouilli => [KBernouilli; KDiscreteDistribution; KDistribution; KIIDProcess; KProcess; KDiscretizedIID; KDiscretized; KObject]
  | c => [c; KObject]
  end.
(** issubclass *)
Definition kls_sub (a b : kls) : bool := existsb (kls_eqb b) (kls_mro a).

(** ergodic_distribution with the package's classes. *)
Definition dolo_ergodic {obj} (class_of : obj -> kls) (exo endo dp : obj -> obj) :=
  ergodic_call kls kls_eqb kls_sub kls_mro KObject KModel KRule KUnstructured KUniform KChain KEmptyGrid KCartesian KDiscretizedIID
    obj class_of exo endo dp.
