(** Vocabulary for the functions compiled from equations, independent of the way the
    code shifts, sorts and unpacks. *)
From Coq Require Import String List Bool ZArith Permutation.
From Verif Require Import Base.Prelude Base.Dict Spec.CompilerMisc Model.Factories.
Import ListNotations.
Open Scope string_scope.
Open Scope list_scope.

Section Spec.
Context {V : Type}.

(** The symbol appears in the expression. *)
Fixpoint mentions (e : expr V) (x : sym) : Prop :=
  match e with
  | ENum _ => False
  | ESym y => y = x
  | EApp1 _ a => mentions a x
  | EApp2 _ a b => mentions a x \/ mentions b x
  end.

(** Definitions in an order in which each can be computed from those above. *)
Fixpoint triangular (l : list (sym * expr V)) : Prop :=
  match l with
  | [] => True
  | (x, e) :: r => (forall y, In y (x :: map fst r) -> ~ mentions e y) /\ triangular r
  end.

(** What is asked from the sorting of definitions: if it answers, the same
    definitions in such an order. *)
Definition sorts (reorder : list (sym * expr V) -> res (list (sym * expr V))) : Prop :=
  forall l l', reorder l = Ok l' -> Permutation l l' /\ triangular l'.

(** The values of all symbols [k] periods later. *)
Definition later (k : Z) (sigma : sym -> option V) : sym -> option V := fun x =>
  match x with SPar s => sigma (SPar s) | SVar s t => sigma (SVar s (t + k)%Z) end.

(** The i-th symbol of the j-th argument, all dates moved by [k]. *)
Definition argument (m : @source V) (sp : spec) (k : Z) (j i : nat) (x : sym) : Prop :=
  exists g t n s, nth_error (sp_eqs sp) j = Some (g, t, n) /\
    declared (src_symbols m) g i s /\
    x = (if string_dec g "parameters" then SPar s else SVar s (t + k)%Z).

(** Dates at which both the states and the controls are arguments. *)
Definition complete_date (sp : spec) (k t : Z) : Prop :=
  (exists n, In ("states", (t - k)%Z, n) (sp_eqs sp)) /\
  (exists n, In ("controls", (t - k)%Z, n) (sp_eqs sp)).

(** Auxiliary variable [y] at date [t] *)
Definition auxiliary (m : @source V) (sp : spec) (k : Z) (y : string) (e : expr V) (t : Z) : Prop :=
  In (y, e) (src_definitions m) /\ complete_date sp k t.

Variable op1 : string -> V -> res V.
Variable op2 : string -> V -> V -> res V.

(** Values of the symbols when the function is called on [args]: arguments have the
    values given by position; auxiliary variables satisfy their definitions, at the
    complete dates; nothing else has a value. *)
Definition valuation (m : @source V) (sp : spec) (k : Z) (args : list (list V))
  (sigma : sym -> option V) : Prop :=
  (forall j i x, argument m sp k j i x ->
     exists a v, nth_error args j = Some a /\ nth_error a i = Some v /\ sigma x = Some v) /\
  (forall y e t, auxiliary m sp k y e t ->
     exists v, eval op1 op2 (later t sigma) e = Ok v /\ sigma (SVar y t) = Some v) /\
  (forall x v, sigma x = Some v ->
     (exists j i, argument m sp k j i x) \/
     (exists y e t, auxiliary m sp k y e t /\ x = SVar y t)).

(** Value of one equation: its right-hand side if the kind has a target, and
    otherwise the right-hand side minus the left-hand side, all moved by [k]. *)
Definition equation_value (m : @source V) (sp : spec) (k : Z) (sigma : sym -> option V)
  (q : equation V) (v : V) : Prop :=
  let value e w := eval op1 op2 (later k sigma) (sanitize (src_variables m) e) = Ok w in
  match sp_target sp, q with
  | Some _, Equal _ r => value r v
  | Some _, Lone _ => False
  | None, Equal l r => exists a b, value r a /\ value l b /\ op2 "-" a b = Ok v
  | None, Lone e => value e v
  end.

(** Names are declared once, auxiliary variables apart. *)
Definition well_declared (m : @source V) : Prop :=
  distinct_symbols (src_symbols m) /\ NoDup (dkeys (src_definitions m)) /\
  forall y g i, In y (dkeys (src_definitions m)) -> declared (src_symbols m) g i y ->
                g = "auxiliaries".

(** At most one equation per target. *)
Definition enough_targets (m : @source V) (sp : spec) (eqs : list (equation V)) : Prop :=
  match sp_target sp with
  | Some (g, _) => forall l, dget (src_symbols m) g = Some l -> List.length eqs <= List.length l
  | None => True
  end.

(** No equation uses the symbols under which the values are returned. *)
Definition targets_unused (m : @source V) (sp : spec) (eqs : list (equation V)) : Prop :=
  match sp_target sp with
  | Some (g, t) => forall l r i s, In (Equal l r) eqs -> declared (src_symbols m) g i s ->
                     ~ mentions (sanitize (src_variables m) r) (SVar s t)
  | None => forall i t, i < List.length eqs ->
      (forall e, In (Lone e) eqs ->
         ~ mentions (sanitize (src_variables m) e) (SVar (out_name i) t)) /\
      (forall l r, In (Equal l r) eqs ->
         ~ mentions (sanitize (src_variables m) r) (SVar (out_name i) t) /\
         ~ mentions (sanitize (src_variables m) l) (SVar (out_name i) t))
  end.


(** A line (name, date, right-hand side) of the block of definitions is right, given
    the variables known above it and the parameters. *)
Definition right_line (vars params : list string) (line : string * Z * expr V) : Prop :=
  let '(name, date, rhs) := line in
  ~ In name vars /\ date = 0%Z /\
  (forall p, mentions rhs (SPar p) -> In p params /\ ~ In p vars) /\
  (forall v t, mentions rhs (SVar v t) -> In v vars).

End Spec.
