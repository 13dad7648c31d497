(** C65, C66, C105: functions compiled from equations, formulas, definitions. *)
From Coq Require Import String List Bool ZArith Lia.
From Verif Require Import Base.Prelude Base.Dict Spec.CompilerMisc Model.Factories Spec.Factories
  Proofs.FactoriesProofs Proofs.FactoriesFinal.
Import ListNotations.
Open Scope string_scope.
Open Scope list_scope.

(** ** C65 *)

(** The function made with shift [k] answers [outs] on [args] if and only if, once
    arguments are given to the symbols at their dates plus [k], by position, and
    auxiliary variables are computed from their definitions, the equations moved by
    [k] have the values [outs]. *)
Theorem C65_values :
  forall (V : Type) (op1 : string -> V -> res V) (op2 : string -> V -> V -> res V)
         reorder (m : @source V) eq_type k sp eqs ff keep args outs,
    sorts reorder -> well_declared m ->
    chosen_spec eq_type = Some sp -> chosen_equations m eq_type = Ok eqs ->
    enough_targets m sp eqs -> (keep = true -> targets_unused m sp eqs) ->
    get_factory reorder m eq_type k = Ok ff ->
    (call op1 op2 keep ff args = Ok outs <->
     List.length args = List.length (sp_eqs sp) /\
     exists sigma, valuation op1 op2 m sp k args sigma /\
       Forall2 (equation_value op1 op2 m sp k sigma) eqs outs).
Proof. exact @call_values. Qed.
Print Assumptions C65_values.

(** Hence the shift is invisible to callers: same arguments, same answer. *)
Theorem C65_shift :
  forall (V : Type) (op1 : string -> V -> res V) (op2 : string -> V -> V -> res V)
         reorder (m : @source V) eq_type k k' sp eqs ff ff' keep args outs,
    sorts reorder -> well_declared m ->
    chosen_spec eq_type = Some sp -> chosen_equations m eq_type = Ok eqs ->
    enough_targets m sp eqs -> (keep = true -> targets_unused m sp eqs) ->
    get_factory reorder m eq_type k = Ok ff -> get_factory reorder m eq_type k' = Ok ff' ->
    call op1 op2 keep ff args = Ok outs -> call op1 op2 keep ff' args = Ok outs.
Proof. exact @call_shift. Qed.
Print Assumptions C65_shift.

(** The names of the arguments: same argument groups, symbols moved by [k] except
    parameters. *)
Theorem C65_argument_names :
  forall (V : Type) reorder (m : @source V) eq_type k ff ff0,
    get_factory reorder m eq_type k = Ok ff -> get_factory reorder m eq_type 0 = Ok ff0 ->
    map fst (ff_arguments ff) = map fst (ff_arguments ff0) /\
    forall n, dget (ff_arguments ff) n
              = option_map (map (fun x => match x with
                                          | SPar s => SPar s
                                          | SVar s t => SVar s (t + k)%Z
                                          end)) (dget (ff_arguments ff0) n).
Proof. exact @factory_shifted. Qed.
Print Assumptions C65_argument_names.

(** A model with integer values: k[t] = b*k[t-1] + i[t-1] + y[t-1], where
    y = z + k and w = y*y are auxiliary variables; arbitrage w[t+1] = i + k, and a
    bound that uses y. *)
Definition toy : @source Z := Source
  [("exogenous", ["z"]); ("states", ["k"]); ("controls", ["i"]); ("parameters", ["b"]);
   ("auxiliaries", ["y"; "w"])]
  [("transition", [Equal (ESym (SVar "k" 0))
      (EApp2 "+" (EApp2 "*" (ESym (SPar "b")) (ESym (SVar "k" (-1))))
                 (EApp2 "+" (ESym (SVar "i" (-1))) (ESym (SVar "y" (-1)))))]);
   ("arbitrage", [Equal (ESym (SVar "w" 1)) (EApp2 "+" (ESym (SPar "i")) (ESym (SVar "k" 0)))]);
   ("arbitrage_ub", [Lone (ESym (SVar "y" 0))])]
  [("y", EApp2 "+" (ESym (SVar "z" 0)) (ESym (SVar "k" 0)));
   ("w", EApp2 "*" (ESym (SVar "y" 0)) (ESym (SVar "y" 0)))].
Definition zop1 (f : string) (a : Z) : res Z := Err ExcName.
Definition zop2 (f : string) (a b : Z) : res Z :=
  if f =? "+" then Ok (a + b)%Z else if f =? "*" then Ok (a * b)%Z
  else if f =? "-" then Ok (a - b)%Z else Err ExcName.


(** The hypotheses hold of it, and the transition with shifts 0 and 3 gives
    2*10 + 4 + (1 + 10) both times; the arbitrage residual is (4 + 10) - (2 + 5)^2. *)
Example C65_example :
  @sorts Z check_sorted /\ well_declared toy /\
  (forall sp eqs, chosen_spec "arbitrage" = Some sp -> chosen_equations toy "arbitrage" = Ok eqs ->
     enough_targets toy sp eqs /\ targets_unused toy sp eqs) /\
  (forall sp eqs, chosen_spec "transition" = Some sp -> chosen_equations toy "transition" = Ok eqs ->
     enough_targets toy sp eqs /\ targets_unused toy sp eqs) /\
  (forall k, In k [0%Z; 3%Z] -> exists ff, get_factory check_sorted toy "transition" k = Ok ff /\
     call zop1 zop2 true ff [[1%Z]; [10%Z]; [4%Z]; [7%Z]; [2%Z]] = Ok [35%Z]) /\
  (forall k, In k [0%Z; (-2)%Z] -> exists ff, get_factory check_sorted toy "arbitrage" k = Ok ff /\
     call zop1 zop2 true ff [[1%Z]; [10%Z]; [4%Z]; [2%Z]; [5%Z]; [0%Z]; [2%Z]] = Ok [(-35)%Z]).
Proof.
  split; [exact check_sorted_sorts|split; [|split; [|split; [|split]]]].
  - split; [|split].
    + apply distinct_check. vm_compute. repeat constructor; simpl; intuition discriminate.
    + vm_compute. repeat constructor; simpl; intuition discriminate.
    + intros y g i Hy (l & D & E). apply dget_In in D. apply nth_error_In in E.
      simpl in D, Hy. repeat (destruct D as [D|D]; [injection D as <- <-; simpl in E|]);
        try contradiction; intuition (subst; try discriminate; try reflexivity).
  - intros sp eqs H H'. injection H as <-. injection H' as <-. split; [exact I|].
    intros i t Hi. simpl. split.
    + intros e [C|[]]. discriminate.
    + intros l r [C|[]]. injection C as <- <-. simpl. split; [|intros C; discriminate].
      intros [C|C]; discriminate.
  - intros sp eqs H H'. injection H as <-. injection H' as <-. split.
    + intros l Hl. injection Hl as <-. simpl. lia.
    + intros l r i s [C|[]] (syms & D & E). injection C as <- <-. injection D as <-.
      destruct i as [|[|i]]; try discriminate. injection E as <-. simpl.
      intuition discriminate.
  - intros k [<-|[<-|[]]]; eexists; (split; [vm_compute; reflexivity|vm_compute; reflexivity]).
  - intros k [<-|[<-|[]]]; eexists; (split; [vm_compute; reflexivity|vm_compute; reflexivity]).
Qed.

(** Definitions are included only where both states and controls are arguments, so
    auxiliary variables do not exist in bounds of complementarity conditions: the
    function raises NameError on all arguments. *)
Theorem C65_bounds_auxiliary_refuted :
  exists ff, get_factory check_sorted toy "arbitrage_ub" 0 = Ok ff /\
    forall keep z k b, call zop1 zop2 keep ff [[z]; [k]; [b]] = Err ExcName.
Proof. exact (ex_intro _ _ (conj eq_refl (fun keep z k b => eq_refl))). Qed.
Print Assumptions C65_bounds_auxiliary_refuted.

(** Equations beyond the number of targets are dropped without notice. *)
Theorem C65_extra_equations_refuted :
  exists (m : @source Z) ff, well_declared m /\
    chosen_equations m "transition" = Ok [Equal (ESym (SVar "k" 0)) (ENum 1%Z);
                                          Equal (ESym (SVar "j" 0)) (ENum 2%Z)] /\
    get_factory check_sorted m "transition" 0 = Ok ff /\
    forall keep z, call zop1 zop2 keep ff [[z]; [0%Z]; []; [z]; []] = Ok [1%Z].
Proof.
  exists (Source [("exogenous", ["z"]); ("states", ["k"]); ("controls", []); ("parameters", [])]
    [("transition", [Equal (ESym (SVar "k" 0)) (ENum 1%Z); Equal (ESym (SVar "j" 0)) (ENum 2%Z)])] []).
  eexists. split; [|split; [reflexivity|split; [vm_compute; reflexivity|intros [|] z; reflexivity]]].
  split; [|split].
  - apply distinct_check. vm_compute. repeat constructor; simpl; intuition discriminate.
  - constructor.
  - intros y g i [].
Qed.
Print Assumptions C65_extra_equations_refuted.

(** ** C66: formulas on tables *)

(** One value per row of the table: the formula evaluated with each variable k(t)
    read [t] rows ABOVE (missing values outside of the table), each undated name read
    in the context and t in the index. Succeeds exactly if all variables are columns
    and all rows can be evaluated. *)
Theorem C66_rows_partial :
  forall (V : Type) (op1 : string -> V -> res V) (op2 : string -> V -> V -> res V)
         (nan : V) T (table : dict (nat -> V)) known index e rows,
    eval_formula_table op1 op2 nan T table known index e = Ok rows <->
    (forall s t, mentions e (SVar s t) -> In s (dkeys table)) /\
    List.length rows = T /\
    forall i, i < T -> exists v, nth_error rows i = Some v /\
      eval op1 op2
        (fun x => match x with
                  | SPar s => if s =? "t" then Some (index i) else dget known s
                  | SVar s t =>
                      match dget table s with
                      | Some col =>
                          Some (if (0 <=? Z.of_nat i - t)%Z && (Z.of_nat i - t <? Z.of_nat T)%Z
                                then col (Z.to_nat (Z.of_nat i - t)) else nan)
                      | None => None
                      end
                  end) e = Ok v.
Proof. exact @formula_rows. Qed.
Print Assumptions C66_rows_partial.
Example C66_example :
  eval_formula_table zop1 zop2 (-99)%Z 3 [("k", fun i => Z.of_nat (10 * i))] [("d", 5%Z)]
    (fun i => Z.of_nat i)
    (EApp2 "-" (ESym (SVar "k" 0)) (EApp2 "+" (ESym (SPar "d")) (ESym (SPar "t"))))
  = Ok [(-5)%Z; 4%Z; 13%Z].
Proof. reflexivity. Qed.

(** So k(1) is, on every table, the series of PREVIOUS values. *)
Theorem C66_lead_refuted :
  forall (V : Type) (op1 : string -> V -> res V) (op2 : string -> V -> V -> res V)
         (nan : V) T (table : dict (nat -> V)) known index s col rows i,
    dget table s = Some col ->
    eval_formula_table op1 op2 nan T table known index (ESym (SVar s 1)) = Ok rows ->
    S i < T -> nth_error rows (S i) = Some (col i).
Proof. exact @formula_lead. Qed.
Print Assumptions C66_lead_refuted.
Example C66_lead_example :
  eval_formula_table zop1 zop2 (-99)%Z 3 [("k", fun i => Z.of_nat (10 * i))] [] (fun i => Z.of_nat i)
    (ESym (SVar "k" 1)) = Ok [(-99)%Z; 0%Z; 10%Z].
Proof. reflexivity. Qed.

(** ** C105: definitions *)

(** A block of definitions is accepted if and only if each line defines a new name at
    date t from declared parameters, declared variables and auxiliary variables
    defined above; it then gives these names and expressions in order. *)
Theorem C105_accepted :
  forall (V : Type) (lines : list (string * Z * expr V)) vars params auxs defs,
    read_definitions vars params lines = Ok (auxs, defs) <->
    auxs = map (fun l => fst (fst l)) lines /\
    defs = map (fun l => (fst (fst l), snd l)) lines /\
    forall i line, nth_error lines i = Some line ->
      right_line (vars ++ map (fun l => fst (fst l)) (firstn i lines)) params line.
Proof. exact @definitions_accepted. Qed.
Print Assumptions C105_accepted.

(** Such definitions, moved to any date, define each name once and can be computed in
    their own order. *)
Theorem C105_computable :
  forall (V : Type) (lines : list (string * Z * expr V)) vars params auxs defs t,
    read_definitions vars params lines = Ok (auxs, defs) ->
    NoDup (dkeys defs) /\
    triangular (map (fun d => (SVar (fst d) t, time_shift t (snd d))) defs).
Proof. exact @definitions_triangular. Qed.
Print Assumptions C105_computable.
Example C105_example :
  read_definitions ["z"; "k"] ["b"]
    [("y", 0%Z, EApp2 "+" (ESym (SVar "z" 0)) (ESym (SPar "b"))); ("w", 0%Z, ESym (SVar "y" 0))]
  = Ok (["y"; "w"], [("y", EApp2 "+" (ESym (SVar "z" 0)) (ESym (SPar "b")));
                     ("w", @ESym Z (SVar "y" 0))]) /\
  is_err (read_definitions ["z"; "k"] ["b"]
    [("w", 0%Z, ESym (SVar "y" 0)); ("y", 0%Z, @ESym Z (SVar "z" 0))]).
Proof. split; [reflexivity|eexists; reflexivity]. Qed.

(** The dates of the right-hand side are not checked: y[t] = k[t-1] is accepted, and
    then every call of the arbitrage function raises. *)
Theorem C105_dates_refuted :
  exists defs (m : @source Z) ff,
    read_definitions ["z"; "k"; "i"] [] [("y", 0%Z, ESym (SVar "k" (-1)))] = Ok (["y"], defs) /\
    well_declared m /\ src_definitions m = defs /\
    get_factory check_sorted m "arbitrage" 0 = Ok ff /\
    forall keep z k i z' k' i', call zop1 zop2 keep ff [[z]; [k]; [i]; [z']; [k']; [i']; []] = Err ExcName.
Proof.
  eexists. exists (Source [("exogenous", ["z"]); ("states", ["k"]); ("controls", ["i"]);
      ("parameters", []); ("auxiliaries", ["y"])]
    [("arbitrage", [Lone (ESym (SVar "i" 0))])] [("y", ESym (SVar "k" (-1)))]).
  eexists. split; [reflexivity|split; [|split; [reflexivity|split; [vm_compute; reflexivity|reflexivity]]]].
  split; [|split].
  - apply distinct_check. vm_compute. repeat constructor; simpl; intuition discriminate.
  - repeat constructor. simpl. tauto.
  - intros y g i [<-|[]] (l & D & E). apply dget_In in D. apply nth_error_In in E.
    simpl in D. repeat (destruct D as [D|D]; [injection D as <- <-; simpl in E|]);
      try contradiction; intuition (subst; try discriminate; try reflexivity).
Qed.
Print Assumptions C105_dates_refuted.
