(** C58, C59, C60: calibrations as vectors and dictionaries. *)
From Coq Require Import String List.
From Verif Require Import Base.Prelude Base.Dict Model.CompilerMisc Spec.CompilerMisc
  Proofs.CompilerMiscProofs.
Import ListNotations.
Open Scope string_scope.
Open Scope list_scope.

(** A symbol table and a calibration used in the examples below. *)
Definition ex_symbols : dict (list string) :=
  [("states", ["k"; "z"]); ("controls", ["i"]); ("parameters", ["beta"; "delta"])].
Definition ex_calib : dict (list nat) :=
  [("states", [9; 1]); ("controls", [2]); ("parameters", [96; 25])].

Example ex_plain : plain_groups ex_symbols equivalent_symbols.
Proof.
  split.
  - simpl. intuition discriminate.
  - intros a [<-|[]]. simpl. intuition discriminate.
Qed.

Example ex_calibrates : calibrates ex_symbols ex_calib.
Proof.
  repeat split.
  - repeat constructor; simpl; intuition discriminate.
  - repeat constructor; simpl; intuition discriminate.
  - intros H; exact H.
  - intros H; exact H.
  - intros g syms v H1 H2. simpl in H1, H2.
    destruct (String.eqb g "states"); [inversion H1; inversion H2; reflexivity|].
    destruct (String.eqb g "controls"); [inversion H1; inversion H2; reflexivity|].
    destruct (String.eqb g "parameters"); [inversion H1; inversion H2; reflexivity|discriminate].
Qed.

Example ex_distinct : distinct_symbols ex_symbols.
Proof.
  intros g i g' i' s (l & Hl & Hi) (l' & Hl' & Hi'). simpl in Hl, Hl'.
  destruct (String.eqb g "states") eqn:E1; [|destruct (String.eqb g "controls") eqn:E2;
    [|destruct (String.eqb g "parameters") eqn:E3; [|discriminate]]];
  (destruct (String.eqb g' "states") eqn:E1'; [|destruct (String.eqb g' "controls") eqn:E2';
    [|destruct (String.eqb g' "parameters") eqn:E3'; [|discriminate]]]);
  inversion Hl; inversion Hl'; subst;
  repeat match goal with H : String.eqb _ _ = true |- _ => apply String.eqb_eq in H; subst end;
  destruct i as [|[|i]]; destruct i' as [|[|i']]; simpl in Hi, Hi';
  try (destruct i; discriminate); try (destruct i'; discriminate);
  try discriminate; try (split; reflexivity); congruence.
Qed.

(** C58. A calibration which gives one vector per group, of the right length,
    can be wrapped in a CalibrationDict. *)
Theorem C58_constructed :
  forall (V : Type) (symbols : dict (list string)) (equivs : dict string) (calib : dict (list V)),
    plain_groups symbols equivs -> calibrates symbols calib ->
    exists c, calibration_dict_init (Loosy symbols equivs) calib equivs = Ok c.
Proof. exact @cal_init. Qed.
Print Assumptions C58_constructed.

Definition ex_cd : calibration_dict nat :=
  CD (Loosy ex_symbols equivalent_symbols)
     [("k", 9); ("z", 1); ("i", 2); ("beta", 96); ("delta", 25)]
     (Loosy ex_calib equivalent_symbols).
Example C58_constructed_example :
  calibration_dict_init (Loosy ex_symbols equivalent_symbols) ex_calib equivalent_symbols = Ok ex_cd.
Proof. reflexivity. Qed.

(** C58. calib[group] is the vector of the group. *)
Theorem C58_group :
  forall (V : Type) (symbols : dict (list string)) (equivs : dict string) (calib : dict (list V)),
    plain_groups symbols equivs -> calibrates symbols calib ->
    forall c, calibration_dict_init (Loosy symbols equivs) calib equivs = Ok c ->
    forall g values, dget calib g = Some values ->
      cd_getitem c (KStr g) = Ok (AVec values).
Proof. exact @lookup_group. Qed.
Print Assumptions C58_group.
Example C58_group_example : cd_getitem ex_cd (KStr "states") = Ok (AVec [9; 1]).
Proof. reflexivity. Qed.

(** C58. calib[alternative name] is the vector of the group it stands for; with
    the code's table, calib['actions'] is calib['controls']. *)
Theorem C58_alternative_name :
  forall (V : Type) (symbols : dict (list string)) (equivs : dict string) (calib : dict (list V)),
    forall c, calibration_dict_init (Loosy symbols equivs) calib equivs = Ok c ->
    forall a g values, dget equivs a = Some g -> dget calib g = Some values ->
      cd_getitem c (KStr a) = Ok (AVec values).
Proof. exact @lookup_alias. Qed.
Print Assumptions C58_alternative_name.
Example C58_alternative_name_example :
  dget equivalent_symbols "actions" = Some "controls" /\
  cd_getitem ex_cd (KStr "actions") = Ok (AVec [2]).
Proof. split; reflexivity. Qed.

(** C58. calib[symbol] is the number at the symbol's place in its group's
    vector, for every symbol that is not also the name of a group. *)
Theorem C58_symbol_partial :
  forall (V : Type) (symbols : dict (list string)) (equivs : dict string) (calib : dict (list V)),
    plain_groups symbols equivs -> calibrates symbols calib ->
    forall c, calibration_dict_init (Loosy symbols equivs) calib equivs = Ok c ->
    distinct_symbols symbols ->
    forall g i s values v,
      declared symbols g i s -> dget calib g = Some values -> nth_error values i = Some v ->
      ~ In s (dkeys symbols) -> ~ In s (dkeys equivs) ->
      cd_getitem c (KStr s) = Ok (ANum v).
Proof. exact @lookup_symbol. Qed.
Print Assumptions C58_symbol_partial.
Example C58_symbol_partial_example :
  declared ex_symbols "parameters" 1 "delta" /\ cd_getitem ex_cd (KStr "delta") = Ok (ANum 25).
Proof. split; [exists ["beta"; "delta"]; split; reflexivity|reflexivity]. Qed.

(** C58. The full statement is false: a control named 'actions' cannot be read,
    calib['actions'] is the vector of all controls. *)
Theorem C58_symbol_refuted :
  exists (symbols : dict (list string)) (calib : dict (list nat)) c,
    plain_groups symbols equivalent_symbols /\ calibrates symbols calib /\
    calibration_dict_init (Loosy symbols equivalent_symbols) calib equivalent_symbols = Ok c /\
    declared symbols "states" 0 "actions" /\ dget calib "states" = Some [7] /\
    cd_getitem c (KStr "actions") = Ok (AVec [8]).
Proof.
  exists [("states", ["actions"]); ("controls", ["i"])], [("states", [7]); ("controls", [8])].
  eexists. split; [|split; [|split; [reflexivity|split; [|split; reflexivity]]]].
  - split; [simpl; intuition discriminate|]. intros a [<-|[]]. simpl. intuition discriminate.
  - repeat split.
    + repeat constructor; simpl; intuition discriminate.
    + repeat constructor; simpl; intuition discriminate.
    + intros H; exact H.
    + intros H; exact H.
    + intros g syms v H1 H2. simpl in H1, H2.
      destruct (String.eqb g "states"); [inversion H1; inversion H2; reflexivity|].
      destruct (String.eqb g "controls"); [inversion H1; inversion H2; reflexivity|discriminate].
  - exists ["actions"]. split; reflexivity.
Qed.
Print Assumptions C58_symbol_refuted.

(** C58. calib[(a, b, ..)] is the list of the lookups, in order; it fails if and
    only if one of them does. *)
Theorem C58_tuple :
  forall (V : Type) (c : calibration_dict V) (ks : list key) (a : answer V),
    cd_getitem c (KTuple ks) = Ok a <->
    exists l, a = AList l /\ Forall2 (fun k b => cd_getitem c k = Ok b) ks l.
Proof.
  exact (fun V c ks a => conj (lookup_tuple_inv c ks a)
           (fun H => match H with
                     | ex_intro _ l (conj e F) =>
                         eq_trans (lookup_tuple_ok c ks l F) (f_equal Ok (eq_sym e))
                     end)).
Qed.
Print Assumptions C58_tuple.
Example C58_tuple_example :
  cd_getitem ex_cd (KTuple [KStr "states"; KStr "beta"; KTuple [KStr "z"; KStr "actions"]])
  = Ok (AList [AVec [9; 1]; ANum 96; AList [ANum 1; AVec [2]]]).
Proof. reflexivity. Qed.

(** C58. A name that is neither a group, an alternative name nor a declared
    symbol raises KeyError. *)
Theorem C58_unknown :
  forall (V : Type) (symbols : dict (list string)) (equivs : dict string) (calib : dict (list V)),
    plain_groups symbols equivs -> calibrates symbols calib ->
    forall c, calibration_dict_init (Loosy symbols equivs) calib equivs = Ok c ->
    forall s, ~ In s (dkeys symbols) -> ~ In s (dkeys equivs) ->
      (forall g i, ~ declared symbols g i s) ->
      cd_getitem c (KStr s) = Err ExcKey.
Proof. exact @lookup_unknown. Qed.
Print Assumptions C58_unknown.
Example C58_unknown_example : cd_getitem ex_cd (KStr "gamma") = Err ExcKey.
Proof. reflexivity. Qed.

(** C59. Going to vectors and back gives every declared symbol its solved value
    (nan if the calibration says nothing about it) and no other entry. The
    symbols need not be distinct. *)
Theorem C59_round_trip :
  forall (E V : Type) (solve : dict E -> res (dict V)) (nan : V)
         (symbols : dict (list string)) (equivs : dict string) (c : dict E) (sol : dict V),
    plain_groups symbols equivs -> solve c = Ok sol ->
    exists out d,
      calibration_to_vector solve nan (Loosy symbols equivs) c = Ok out /\
      calibration_to_dict (Loosy symbols equivs) out = Ok d /\
      (forall g i s, declared symbols g i s ->
         dget d s = Some (match dget sol s with Some v => v | None => nan end)) /\
      (forall s, (forall g i, ~ declared symbols g i s) -> dget d s = None).
Proof. exact @round_trip. Qed.
Print Assumptions C59_round_trip.

(** C59. The vectors: one per group, one number per symbol in the order of the
    declaration. *)
Theorem C59_vectors :
  forall (E V : Type) (solve : dict E -> res (dict V)) (nan : V)
         (symbols : dict (list string)) (equivs : dict string) (c : dict E) (sol : dict V),
    plain_groups symbols equivs -> solve c = Ok sol ->
    exists out,
      calibration_to_vector solve nan (Loosy symbols equivs) c = Ok out /\ NoDup (dkeys out) /\
      forall g, dget out g =
        match dget symbols g with
        | Some syms =>
            Some (map (fun s => match dget sol s with Some v => v | None => nan end) syms)
        | None => None
        end.
Proof. exact @to_vector_spec. Qed.
Print Assumptions C59_vectors.
Example C59_example :
  calibration_to_vector (fun d : dict nat => Ok d) 0 (Loosy ex_symbols equivalent_symbols)
    [("delta", 25); ("k", 9); ("unused", 4); ("i", 2)]
  = Ok [("states", [9; 0]); ("controls", [2]); ("parameters", [0; 25])].
Proof. reflexivity. Qed.

(** C59. A table with a group called 'actions' and no group 'controls' cannot be
    used: its lookup is sent to 'controls'. *)
Theorem C59_actions_group_refuted :
  forall (V : Type) (solve : dict V -> res (dict V)) (nan : V) (syms : list string) c sol,
    solve c = Ok sol ->
    calibration_to_vector solve nan
      (Loosy [("actions", syms)] equivalent_symbols) c = Err ExcKey.
Proof.
  exact (fun V solve nan syms c sol H =>
    eq_trans (f_equal (fun r => bind r (fun sol0 =>
       vectors nan (Loosy [("actions", syms)] equivalent_symbols) sol0 ["actions"] [])) H) eq_refl).
Qed.
Print Assumptions C59_actions_group_refuted.
Example C59_actions_group_example :
  calibration_to_vector (fun d : dict nat => Ok d) 0 (Loosy [("actions", ["i"])] equivalent_symbols)
    [("i", 2)] = Err ExcKey.
Proof. reflexivity. Qed.

(** C60. After any history of assignments and deletions, d[p] is what the
    history left under the renamed key, or KeyError. *)
Theorem C60_lookup :
  forall (V : Type) (kwargs : dict V) (equivs : option (dict string)) (h : list lop) (p : string),
    loosy_getitem (lrun (loosy_init kwargs equivs) h) p =
    let k := match equivs with
             | Some e => match dget e p with Some k => k | None => p end
             | None => p
             end in
    match left_under k (dget kwargs k) h with Some v => Ok v | None => Err ExcKey end.
Proof. exact @loosy_history. Qed.
Print Assumptions C60_lookup.
Example C60_lookup_example :
  loosy_getitem (lrun (loosy_init [("controls", 1)] (Some equivalent_symbols))
    [LSet "states" 5; LSet "controls" 6; LDel "states"]) "actions" = Ok 6.
Proof. reflexivity. Qed.

(** C60. Only lookups rename. 'actions' in d and d.get('actions') say there is
    nothing where d['actions'] answers, and what is assigned to d['actions']
    can never be read back that way. *)
Theorem C60_other_methods_refuted :
  exists (d : loosy nat),
    loosy_getitem d "actions" = Ok 1 /\
    loosy_contains d "actions" = false /\ loosy_get d "actions" = None /\
    loosy_delitem d "actions" = Err ExcKey /\
    (forall v, loosy_getitem (loosy_setitem d "actions" v) "actions" = Ok 1).
Proof.
  exact (ex_intro _ (loosy_init [("controls", 1)] (Some equivalent_symbols))
    (conj eq_refl (conj eq_refl (conj eq_refl (conj eq_refl (fun v => eq_refl)))))).
Qed.
Print Assumptions C60_other_methods_refuted.
