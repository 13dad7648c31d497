(** C140: which computation a call of [ergodic_distribution] runs. *)
From Coq Require Import String Reals List Arith Bool Lia.
From Verif.Base Require Import Prelude Arrays.
From Verif.Model Require Import Multimethod Discretization ErgodicDispatch Discretize.
From Verif.Spec Require Import Multimethod ErgodicDispatch.
From Verif.Proofs Require Import ErgodicDispatchProofs.
Import ListNotations.
Local Open Scope string_scope.

(** The answer never depends on the calls made before: for all classes, objects, histories and arguments. *)
Theorem C140_history :
  forall cls cls_eqb sub mro object model rule unstructured uniform chain empty cartesian law obj class_of exo endo dp,
    hierarchy cls cls_eqb sub ->
  forall fuel hist args kws,
    ergodic_call cls cls_eqb sub mro object model rule unstructured uniform chain empty cartesian law obj class_of exo endo dp fuel hist args kws =
    ergodic_call cls cls_eqb sub mro object model rule unstructured uniform chain empty cartesian law obj class_of exo endo dp fuel [] args kws.
Proof. exact history_invisible. Qed.
Print Assumptions C140_history.

(** The computation for Markov chains is run on a model, a rule, an unstructured grid, a uniform grid and a chain (or subclasses
    of these, whatever the users' classes), with nothing more than compute_mu; other arguments are refused. *)
Theorem C140_chain :
  forall cls cls_eqb sub mro object model rule unstructured uniform chain empty cartesian law obj class_of exo endo dp,
    hierarchy cls cls_eqb sub -> ~ accepts cls sub [model; rule; empty; cartesian; law] [model; rule; unstructured; uniform; chain] ->
  forall fuel hist args kws, NoDup (map fst kws) ->
    instances sub class_of [model; rule; unstructured; uniform; chain] args -> ~ instances sub class_of [model; rule; empty; cartesian; law] args ->
    (complete args kws ->
     ergodic_call cls cls_eqb sub mro object model rule unstructured uniform chain empty cartesian law obj class_of exo endo dp (S fuel) hist args kws =
       Ok (ForChain obj args kws)) /\
    (~ complete args kws ->
     ergodic_call cls cls_eqb sub mro object model rule unstructured uniform chain empty cartesian law obj class_of exo endo dp (S fuel) hist args kws = Err ExcType).
Proof. exact for_chains. Qed.
Print Assumptions C140_chain.

(** The same for laws: a model, a rule, an empty grid, a cartesian grid and a discretised i.i.d. process. *)
Theorem C140_law :
  forall cls cls_eqb sub mro object model rule unstructured uniform chain empty cartesian law obj class_of exo endo dp,
    hierarchy cls cls_eqb sub -> ~ accepts cls sub [model; rule; empty; cartesian; law] [model; rule; unstructured; uniform; chain] ->
  forall fuel hist args kws, NoDup (map fst kws) ->
    instances sub class_of [model; rule; empty; cartesian; law] args -> ~ instances sub class_of [model; rule; unstructured; uniform; chain] args ->
    (complete args kws ->
     ergodic_call cls cls_eqb sub mro object model rule unstructured uniform chain empty cartesian law obj class_of exo endo dp (S fuel) hist args kws =
       Ok (ForLaw obj args kws)) /\
    (~ complete args kws ->
     ergodic_call cls cls_eqb sub mro object model rule unstructured uniform chain empty cartesian law obj class_of exo endo dp (S fuel) hist args kws = Err ExcType).
Proof. exact for_laws. Qed.
Print Assumptions C140_law.

(** With a model and a rule only, the grids and the process are those of the rule. *)
Theorem C140_rule :
  forall cls cls_eqb sub mro object model rule unstructured uniform chain empty cartesian law obj class_of exo endo dp,
    hierarchy cls cls_eqb sub -> ~ accepts cls sub [model; rule; empty; cartesian; law] [model; rule; unstructured; uniform; chain] ->
  forall fuel hist m d, instances sub class_of [model; rule] [m; d] ->
    ergodic_call cls cls_eqb sub mro object model rule unstructured uniform chain empty cartesian law obj class_of exo endo dp (S (S fuel)) hist [m; d] [] =
    ergodic_call cls cls_eqb sub mro object model rule unstructured uniform chain empty cartesian law obj class_of exo endo dp (S fuel) hist
      [m; d; exo d; endo d; dp d] [].
Proof. exact two_arguments. Qed.
Print Assumptions C140_rule.

(** Arguments which do not start with a model and a rule raise DispatchError. *)
Theorem C140_nothing :
  forall cls cls_eqb sub mro object model rule unstructured uniform chain empty cartesian law obj class_of exo endo dp,
    hierarchy cls cls_eqb sub ->
  forall fuel hist args kws, ~ instances sub class_of [model; rule] args ->
    ergodic_call cls cls_eqb sub mro object model rule unstructured uniform chain empty cartesian law obj class_of exo endo dp (S fuel) hist args kws =
      Err (ExcGeneric "DispatchError").
Proof. exact nothing. Qed.
Print Assumptions C140_nothing.

(** Grids and processes for which there is no computation are not refused by the dispatcher: the two-argument version receives
    them, and fails because it has too many arguments.  So does any use of compute_mu in the two-argument form. *)
Theorem C140_unsupported_refuted :
  forall cls cls_eqb sub mro object model rule unstructured uniform chain empty cartesian law obj class_of exo endo dp,
    hierarchy cls cls_eqb sub -> ~ accepts cls sub [model; rule; empty; cartesian; law] [model; rule; unstructured; uniform; chain] ->
  forall fuel hist args kws, instances sub class_of [model; rule] args ->
    ~ instances sub class_of [model; rule; unstructured; uniform; chain] args -> ~ instances sub class_of [model; rule; empty; cartesian; law] args ->
    (length args > 2)%nat \/ kws <> [] ->
    ergodic_call cls cls_eqb sub mro object model rule unstructured uniform chain empty cartesian law obj class_of exo endo dp (S fuel) hist args kws = Err ExcType.
Proof. exact too_many. Qed.
Print Assumptions C140_unsupported_refuted.

(** With the package's own classes: what the call with a model and a decision rule does, for every class of grids and process. *)
Theorem C140_classes :
  forall obj (class_of : obj -> kls) exo endo dp fuel hist m d,
    kls_sub (class_of m) KModel = true -> kls_sub (class_of d) KRule = true ->
    dolo_ergodic class_of exo endo dp (S (S fuel)) hist [m; d] [] =
    (if kls_sub (class_of (exo d)) KUnstructured && kls_sub (class_of (endo d)) KUniform && kls_sub (class_of (dp d)) KChain
     then Ok (ForChain obj [m; d; exo d; endo d; dp d] [])
     else if kls_sub (class_of (exo d)) KEmptyGrid && kls_sub (class_of (endo d)) KCartesian && kls_sub (class_of (dp d)) KDiscretizedIID
     then Ok (ForLaw obj [m; d; exo d; endo d; dp d] []) else Err ExcType).
Proof. exact rule_cases. Qed.
Print Assumptions C140_classes.

(** The classes accepted at each place; in particular nonuniform grids are refused with chains, chains and continuous laws are
    refused with empty grids, and only rules on grids are accepted. *)
Theorem C140_which_classes : forall c,
  (kls_sub c KModel = true <-> c = KModel) /\
  (kls_sub c KRule = true <-> c = KRule) /\
  (kls_sub c KUnstructured = true <-> c = KUnstructured) /\
  (kls_sub c KEmptyGrid = true <-> c = KEmptyGrid) /\
  (kls_sub c KUniform = true <-> c = KUniform) /\
  (kls_sub c KCartesian = true <-> In c [KCartesian; KUniform; KNonUniform]) /\
  (kls_sub c KChain = true <-> c = KChain) /\
  (kls_sub c KDiscretizedIID = true <-> In c [KDiscretizedIID; KDiscreteDistribution; KEquiprobable; KFinite; KBernouilli]).
Proof. exact subclasses. Qed.
Print Assumptions C140_which_classes.

(** A rule solved on the default discretisation of any process, on a uniform grid, is always supported: the computation for laws
    is run when the discretisation is a law, the one for chains otherwise. *)
Theorem C140_solved :
  forall obj (class_of : obj -> kls) exo endo dp herm chol_np chol_sp x k o fuel hist m d,
    discretize herm chol_np chol_sp x ToOmitted k = Ok o ->
    kls_sub (class_of m) KModel = true -> class_of d = KRule ->
    grid_class o (class_of (exo d)) -> class_of (endo d) = KUniform -> process_class o (class_of (dp d)) ->
    dolo_ergodic class_of exo endo dp (S (S fuel)) hist [m; d] [] =
      Ok (match o with OIid _ => ForLaw obj [m; d; exo d; endo d; dp d] [] | _ => ForChain obj [m; d; exo d; endo d; dp d] [] end).
Proof. exact solved_rule. Qed.
Print Assumptions C140_solved.

(** The package's classes are a hierarchy whose two computations are unrelated. *)
Example C140_classes_nontrivial :
  hierarchy kls kls_eqb kls_sub /\
  ~ accepts kls kls_sub [KModel; KRule; KEmptyGrid; KCartesian; KDiscretizedIID] [KModel; KRule; KUnstructured; KUniform; KChain] /\
  let class_of := fun c : kls => c in
  let rule e g p := dolo_ergodic class_of (fun _ => e) (fun _ => g) (fun _ => p) 1000 [([KModel; KRule; KOther 3], []); ([KOther 1], [])] [KModel; KRule] [] in
  rule KUnstructured KUniform KChain = Ok (ForChain kls [KModel; KRule; KUnstructured; KUniform; KChain] []) /\
  rule KEmptyGrid KNonUniform KFinite = Ok (ForLaw kls [KModel; KRule; KEmptyGrid; KNonUniform; KFinite] []) /\
  rule KUniform KUniform KGdp = Err ExcType /\
  dolo_ergodic class_of (fun _ => KUnstructured) (fun _ => KUniform) (fun _ => KChain) 1000 [] [KModel; KRule] [("compute_mu", KBool)] = Err ExcType /\
  dolo_ergodic class_of (fun _ => KUnstructured) (fun _ => KUniform) (fun _ => KChain) 1000 [] [KModel; KConstantRule] [] = Err (ExcGeneric "DispatchError").
Proof. split; [exact kls_hierarchy|]. split; [exact kls_unrelated|]. repeat split. Qed.
Example C140_solved_nontrivial :
  exists c : chain, discretize (fun _ => Err ExcValue) (fun _ => Err ExcValue) (fun _ => Err ExcValue) (PChain c) ToOmitted no_kw = Ok (OChain c).
Proof. exists (Mat 1 1 (fun _ _ => 0%R), Mat 1 1 (fun _ _ => 1%R)). reflexivity. Qed.
