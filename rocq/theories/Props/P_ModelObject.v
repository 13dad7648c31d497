(** C61-C64, C104: the sections of a model file and the model object. *)
From Coq Require Import Ascii String List Bool ZArith Lia.
From Verif Require Import Base.Prelude Base.Dict Base.Strings Model.CompilerMisc
  Spec.CompilerMisc Model.ModelObject Spec.ModelObject
  Proofs.CompilerMiscProofs Proofs.ModelObjectProofs Proofs.ModelObjectFinal.
Import ListNotations.
Open Scope string_scope.
Open Scope list_scope.

(** ** C61: no stale reads *)

(** After any history of writes and reads, a read gives what is computed from the
    calibration lines as the history leaves them, and from the domain section of
    the file. (Keys of the section listed before the loop: see
    [C61_domain_read_refuted] for the other reading.) *)
Theorem C61_current :
  forall (E V B P : Type) (zero_expr nan_expr : E) (nan : V) (literal : V -> E)
         (solve : dict E -> res (dict V)) (symbols : loosy (list string)) (defs : dict E)
         (eval_bound : dict V -> B -> res V) grid (eval_exogenous : option (dict V -> res (exo_section P)))
         (lines : option (dict E)) (sec : option (section B V)) (h : list (action E)),
    let run := file_history zero_expr nan_expr nan literal solve symbols defs eval_bound false
                 grid eval_exogenous lines sec in
    let now := lines_after lines h in
    let calibration := file_calibration zero_expr nan_expr solve symbols defs now in
    run (h ++ [ACalibration])
      = run h ++ [SCalibration (bind calibration (file_wrap nan literal solve symbols))] /\
    run (h ++ [AExogenous])
      = run h ++ [SExogenous (match eval_exogenous with
                              | None => Ok NoExogenous
                              | Some ev =>
                                  bind calibration (fun sol => bind (ev sol) (fun s =>
                                  match s with
                                  | ExoAbsent => Ok NoExogenous
                                  | ExoProcess p => Ok (OneProcess p)
                                  | ExoList ps => Ok (Product ps)
                                  | ExoDict _ => bind (loosy_getitem symbols "exogenous") (fun syms =>
                                                   get_exogenous syms (Ok s))
                                  end))
                              end)] /\
    run (h ++ [ADomain])
      = run h ++ [SDomain (snd (file_domain zero_expr nan_expr solve symbols defs eval_bound
                                  false grid now sec))].
Proof.
  exact (fun E V B P z n nan lit solve symbols defs eb grid ee lines sec h =>
    let S := file_never_stale z n nan lit solve symbols defs eb grid ee lines sec in
    let A := uncached_app (file_calibration z n solve symbols defs)
      (file_wrap nan lit solve symbols) (file_exogenous z n solve symbols defs ee)
      (file_domain z n solve symbols defs eb false grid) h lines sec in
    let T a := eq_trans (S (h ++ [a])) (eq_trans (A a) (f_equal (fun x => x ++ _) (eq_sym (S h)))) in
    conj (T ACalibration) (conj (T AExogenous) (T ADomain))).
Qed.
Print Assumptions C61_current.

(** Under each name the lines hold the last value written. *)
Theorem C61_last_write :
  forall (E : Type) (h : list (action E)) (d : dict E) (k : string),
    Forall proper h ->
    exists d', lines_after (Some d) h = Some d' /\ dget d' k = last_written k (dget d k) h.
Proof. exact @lines_after_get. Qed.
Print Assumptions C61_last_write.

(** A small file: one state k, one control i, one parameter beta; calibration
    entries are numbers, or the name of another symbol. *)
Definition toy_symbols : loosy (list string) :=
  Loosy [("states", ["k"]); ("controls", ["i"]); ("exogenous", ["z"]); ("parameters", ["beta"])]
        equivalent_symbols.
Definition toy_run (h : list (action nat)) :=
  file_history 0 99 99 (fun v : nat => v) (fun d : dict nat => Ok d) toy_symbols []
    (fun sol b => match dget sol b with Some v => Ok v | None => Err ExcName end) false
    (None, None) (Some (fun sol => Ok (ExoDict [(" z ", dget sol "beta")])))
    (Some [("beta", 3); ("k", 5)])
    (Some [("k", (BNum 0, BExpr "beta")); ("junk", (BNum 0, BNum 1))]) h.
Example C61_example :
  toy_run [ADomain; ASet [[("beta", 4)]] [("k", 6)]; ADomain; AExogenous; ASet [] [("beta", 7)];
           ADomain]
  = [SDomain (Ok (Some [("k", (0, 3))])); SNone (Ok tt); SDomain (Ok (Some [("k", (0, 4))]));
     SExogenous (Ok (Product [Some 4])); SNone (Ok tt); SDomain (Ok (Some [("k", (0, 7))]))].
Proof. reflexivity. Qed.

(** Two positional arguments are accepted and ignored. *)
Theorem C61_positional_refuted :
  forall (E : Type) (lines u u' : dict E),
    lines_after (Some lines) [ASet [u; u'] []] = Some lines.
Proof. exact (fun E lines u u' => eq_refl). Qed.
Print Assumptions C61_positional_refuted.
Example C61_positional_example :
  toy_run [ASet [[("beta", 4)]; [("k", 6)]] []; ADomain]
  = [SNone (Ok tt); SDomain (Ok (Some [("k", (0, 3))]))].
Proof. reflexivity. Qed.

(** If the section's keys are a live view, as for Python dictionaries, a key which
    is not a state makes the first read of the domain raise RuntimeError, and the
    second one answer: reading the domain changes the model. *)
Theorem C61_domain_read_refuted :
  exists (lines : option (dict nat)) (sec : option (section string nat)),
    file_history 0 99 99 (fun v : nat => v) (fun d : dict nat => Ok d) toy_symbols []
      (fun sol b => match dget sol b with Some v => Ok v | None => Err ExcName end) true
      (None, None) (Some (fun sol => Ok (ExoDict [("z", tt)]))) lines sec [ADomain; ADomain]
    = [SDomain (Err ExcRuntime); SDomain (Ok (Some [("k", (0, 1))]))].
Proof.
  exact (ex_intro _ (Some [("beta", 3)])
    (ex_intro _ (Some [("junk", (BNum 0, BNum 1)); ("k", (BNum 0, BNum 1))]) eq_refl)).
Qed.
Print Assumptions C61_domain_read_refuted.

(** ** C62: domain *)

(** A section that mentions at least one state: the domain has exactly one
    interval for each state, its bounds being those of the section evaluated in
    the calibration. They come in the order of the SECTION. *)
Theorem C62_intervals_partial :
  forall (E V Sol : Type) (eval_bound : Sol -> E -> res V) live states grid sol
         (sec : section E V) sec' dom s0,
    NoDup states -> NoDup (dkeys sec) -> In s0 states -> In s0 (dkeys sec) ->
    get_domain eval_bound live states grid (Ok sol) (Some sec) = (sec', Ok (Some dom)) ->
    dkeys dom = filter (fun k => existsb (String.eqb k) states) (dkeys sec) /\
    (forall s, In s (dkeys dom) <-> In s states) /\ NoDup (dkeys dom) /\
    forall s, In s states ->
      exists a b x y, dget sec s = Some (a, b) /\ eval_end eval_bound sol a = Ok x /\
        eval_end eval_bound sol b = Ok y /\ dget dom s = Some (x, y).
Proof. exact @domain_intervals. Qed.
Print Assumptions C62_intervals_partial.

(** If the section follows the order of the declaration, so do the vectors of
    bounds (from which grids are built). *)
Theorem C62_order_partial :
  forall (E V Sol : Type) (eval_bound : Sol -> E -> res V) live states grid sol
         (sec : section E V) sec' dom s0,
    NoDup states -> NoDup (dkeys sec) -> In s0 states -> In s0 (dkeys sec) ->
    filter (fun k => existsb (String.eqb k) states) (dkeys sec) = states ->
    get_domain eval_bound live states grid (Ok sol) (Some sec) = (sec', Ok (Some dom)) ->
    domain_states dom = states /\
    forall i s, nth_error states i = Some s ->
      exists a b x y, dget sec s = Some (a, b) /\ eval_end eval_bound sol a = Ok x /\
        eval_end eval_bound sol b = Ok y /\
        nth_error (domain_min dom) i = Some x /\ nth_error (domain_max dom) i = Some y.
Proof. exact @domain_in_order. Qed.
Print Assumptions C62_order_partial.
Example C62_example :
  let ev := fun (sol : nat) (b : nat) => Ok (sol + b) in
  get_domain ev false ["k"; "b"] (None, None) (Ok 10)
    (Some [("k", (BExpr 1, BExpr 2)); ("x", (BExpr 0, BExpr 0)); ("b", (BExpr 3, BExpr 4))])
  = (Some [("k", (BExpr 1, BExpr 2)); ("b", (BExpr 3, BExpr 4))],
     Ok (Some [("k", (11, 12)); ("b", (13, 14))])).
Proof. reflexivity. Qed.

(** Otherwise they are permuted: with states (k, b) and a section that gives b
    before k, the first state gets the bounds of the second. *)
Theorem C62_order_refuted :
  exists (sec : section nat nat) sec' dom,
    (forall s, In s ["k"; "b"] -> In s (dkeys sec)) /\ NoDup (dkeys sec) /\
    dget sec "k" = Some (BNum 0, BNum 1) /\
    get_domain (fun (_ : unit) e => Ok e) false ["k"; "b"] (None, None) (Ok tt) (Some sec)
      = (sec', Ok (Some dom)) /\
    domain_min dom = [5; 0] /\ domain_max dom = [6; 1].
Proof.
  exists [("b", (BNum 5, BNum 6)); ("k", (BNum 0, BNum 1))]. do 2 eexists.
  split; [|split; [|split; [reflexivity|split; [reflexivity|split; reflexivity]]]].
  - simpl. tauto.
  - repeat constructor; simpl; intuition discriminate.
Qed.
Print Assumptions C62_order_refuted.

(** A state without interval is refused. *)
Theorem C62_missing :
  forall (E V Sol : Type) (eval_bound : Sol -> E -> res V) live states grid sol
         (sec : section E V) s0 s1,
    NoDup states -> NoDup (dkeys sec) ->
    In s0 states -> In s0 (dkeys sec) -> In s1 states -> ~ In s1 (dkeys sec) ->
    is_err (snd (get_domain eval_bound live states grid (Ok sol) (Some sec))).
Proof. exact @domain_missing. Qed.
Print Assumptions C62_missing.
Example C62_missing_example :
  snd (get_domain (fun (_ : unit) (e : nat) => Ok e) true ["k"; "b"] (None, None) (Ok tt)
         (Some [("b", (BNum 5, BNum 6))])) = Err (ExcGeneric "Missing domain for states").
Proof. reflexivity. Qed.

(** Old files without the section: the bounds of options:grid, in the order of the
    states. *)
Theorem C62_old_files :
  forall (E V Sol : Type) (eval_bound : Sol -> E -> res V) live states mn mx sol,
    states <> [] -> NoDup states -> List.length mn = List.length states ->
    List.length mx = List.length states ->
    get_domain eval_bound live states (Some mn, Some mx) (Ok sol) None
    = (None, Ok (Some (combine states (combine mn mx)))).
Proof. exact @domain_old_style. Qed.
Print Assumptions C62_old_files.
Example C62_old_files_example :
  domain_max (combine ["k"; "b"] (combine [1; 2] [3; 4])) = [3; 4].
Proof. reflexivity. Qed.

(** ** C63: exogenous processes *)

(** A section which gives processes by names is accepted if and only if its names,
    read in order, are the declared exogenous symbols in order; the answer is the
    product of the processes in that order. *)
Theorem C63_accepted :
  forall (P : Type) (syms : list string) (l : list (string * P)) r,
    get_exogenous syms (Ok (ExoDict l)) = Ok r <->
    r = Product (map snd l) /\
    exists names, Forall2 (fun e n => reads_as (fst e) n) l names /\ syms = concat names.
Proof. exact @exogenous_accepted. Qed.
Print Assumptions C63_accepted.
Example C63_example :
  get_exogenous ["a"; "b"; "c"] (Ok (ExoDict [("a , b", 1); (" c", 2)])) = Ok (Product [1; 2]).
Proof. reflexivity. Qed.

Theorem C63_refused :
  forall (P : Type) (syms : list string) (l : list (string * P)),
    (forall names, Forall2 (fun e n => reads_as (fst e) n) l names -> syms <> concat names) ->
    is_err (get_exogenous syms (Ok (ExoDict l))).
Proof. exact @exogenous_refused. Qed.
Print Assumptions C63_refused.
Example C63_refused_example :
  is_err (get_exogenous ["a"; "b"] (Ok (ExoDict [("b", 1); ("a", 2)]))).
Proof. eexists. reflexivity. Qed.

(** Only the names are checked. A process of dimension 1 given for two symbols, and
    old-style sections of any size, are accepted: the dimension of the process
    is not the number of exogenous symbols. *)
Theorem C63_dimension_refuted :
  exists (syms : list string) (dims : list nat),
    get_exogenous syms (Ok (ExoDict [("a, b", 1)])) = Ok (Product dims) /\
    get_exogenous syms (Ok (ExoList dims)) = Ok (Product dims) /\
    List.length syms = 2 /\ fold_right plus 0 dims = 1.
Proof.
  exact (ex_intro _ ["a"; "b"] (ex_intro _ [1]
    (conj eq_refl (conj eq_refl (conj eq_refl eq_refl))))).
Qed.
Print Assumptions C63_dimension_refuted.

(** ** C64: complementarity conditions *)

(** If the block is accepted, each condition bears on the control of the same rank
    at date 0, and equations, lower and upper bounds are exposed line by line, with
    "-inf" and "inf" where there is no condition; there are no bounds at all if no
    line has a condition. *)
Theorem C64_parsed :
  forall (X : Type) (str : X -> string) (controls : list string) (l : list line) d,
    arbitrage_entries str controls l = Ok d ->
    (forall j x, nth_error l j = Some x -> well_formed controls j x) /\
    dget d "arbitrage" = Some (map (eq_text str) l) /\
    (if existsb has_condition l
     then dget d "arbitrage_lb" = Some (map (lb_text str) l) /\
          dget d "arbitrage_ub" = Some (map (ub_text str) l)
     else dget d "arbitrage_lb" = None /\ dget d "arbitrage_ub" = None).
Proof. exact @arbitrage_parsed. Qed.
Print Assumptions C64_parsed.

(** It is accepted when all conditions are right, refused as soon as one is not. *)
Theorem C64_accepted :
  forall (X : Type) (str : X -> string) (controls : list string) (l : list line),
    (forall j x, nth_error l j = Some x -> well_formed controls j x) ->
    exists d, arbitrage_entries str controls l = Ok d.
Proof. exact @arbitrage_accepted. Qed.
Print Assumptions C64_accepted.

Theorem C64_refused :
  forall (X : Type) (str : X -> string) (controls : list string) (l : list line) j x,
    nth_error l j = Some x -> ~ well_formed controls j x ->
    is_err (arbitrage_entries str controls l).
Proof. exact @arbitrage_rejected. Qed.
Print Assumptions C64_refused.
Example C64_example :
  arbitrage_entries (fun s : string => s) ["i"; "n"]
    [Plain "euler"; Double "labor" "0" "n" 0%Z "1"]
  = Ok [("arbitrage", ["euler"; "labor"]); ("arbitrage_lb", ["-inf"; "0"]);
        ("arbitrage_ub", ["inf"; "1"])] /\
  is_err (arbitrage_entries (fun s : string => s) ["i"; "n"]
    [Double "euler" "0" "n" 0%Z "1"; Plain "labor"]).
Proof. split; [reflexivity|eexists; reflexivity]. Qed.

(** The text form: a two-sided condition gives its two sides without surrounding
    spaces if its middle is the control, and raises otherwise. *)
Theorem C64_text :
  forall lb ctl ub control,
    has_char "010" (lb ++ "<=" ++ ctl ++ "<=" ++ ub)%string = false ->
    has_le lb = false -> has_le ctl = false -> has_le ub = false ->
    decode_complementarity (lb ++ "<=" ++ ctl ++ "<=" ++ ub)%string control
    = (if String.eqb (strip ctl) control then Ok (strip lb, strip ub)
       else Err (ExcGeneric "Complementarity condition incorrect")).
Proof. exact decode_double. Qed.
Print Assumptions C64_text.
Example C64_text_example :
  decode_complementarity "0 <= n[t] <= w+1" "n[t]" = Ok ("0", "w+1").
Proof. reflexivity. Qed.

(** One-sided conditions, which its documentation allows, always raise. *)
Theorem C64_one_sided_refuted :
  forall a b control,
    has_char "010" (a ++ "<=" ++ b)%string = false -> has_le a = false -> has_le b = false ->
    is_err (decode_complementarity (a ++ "<=" ++ b)%string control).
Proof. exact decode_single. Qed.
Print Assumptions C64_one_sided_refuted.
Example C64_one_sided_example : is_err (decode_complementarity "0<=n[t]" "n[t]").
Proof. eexists. reflexivity. Qed.

(** ** C104: values of the calibration *)

(** With a correct triangular solver: every calibration line holds; every
    definition holds whose name has no line of its own; other declared symbols get
    0 if exogenous and nan otherwise, except values, expectations and direct
    responses, which get nothing; no other name gets a value. *)
Theorem C104_calibration :
  forall (E V : Type) (zero_expr nan_expr : E) (value : E -> dict V -> V -> Prop)
         (solve : dict E -> res (dict V)),
    solves_systems value solve ->
    forall symbols equivs lines defs sol,
      plain_groups symbols equivs -> distinct_symbols symbols -> NoDup (dkeys lines) ->
      get_calibration zero_expr nan_expr solve (Loosy symbols equivs) lines defs = Ok sol ->
      forall k,
        (forall e, dget lines k = Some e -> exists v, dget sol k = Some v /\ value e sol v) /\
        (dget lines k = None -> forall e, dget defs k = Some e ->
           exists v, dget sol k = Some v /\ value e sol v) /\
        (dget lines k = None -> dget defs k = None ->
           (forall g i, declared symbols g i k ->
              if in_dec string_dec g ["values"; "expectations"; "direct_responses"]
              then dget sol k = None
              else exists v, dget sol k = Some v /\
                     value (if String.eqb g "exogenous" then zero_expr else nan_expr) sol v) /\
           ((forall g i, ~ declared symbols g i k) -> dget sol k = None)).
Proof. exact @calibration_meaning. Qed.
Print Assumptions C104_calibration.

(** A solver for systems of constants meets the hypothesis; with it, a file. *)
Example C104_example :
  solves_systems (fun (e : nat) (_ : dict nat) v => e = v) (fun d => Ok d) /\
  get_calibration 0 99 (fun d : dict nat => Ok d)
    (Loosy [("states", ["k"]); ("exogenous", ["z"; "e"]); ("values", ["V"]); ("parameters", ["beta"])]
           equivalent_symbols)
    [("beta", 3); ("z", 8)] [("y", 5); ("z", 4)]
  = Ok [("beta", 3); ("z", 8); ("y", 5); ("k", 99); ("e", 0)].
Proof.
  split; [|reflexivity]. intros c sol H k. inversion H; subst.
  destruct (dget sol k) as [v|]; [exists v; split; reflexivity|reflexivity].
Qed.

(** The table of initial values says 0 for values and expectations; they get no
    value, which shows as nan in the calibration vectors. *)
Theorem C104_values_refuted :
  exists symbols lines sol vectors,
    initial_value 0 99 "values" = 0 /\
    get_calibration 0 99 (fun d : dict nat => Ok d) (Loosy symbols equivalent_symbols) lines []
      = Ok sol /\
    calibration_to_vector (fun d : dict nat => Ok d) 99 (Loosy symbols equivalent_symbols) sol
      = Ok vectors /\
    dget vectors "values" = Some [99].
Proof.
  exact (ex_intro _ [("states", ["k"]); ("values", ["V"])] (ex_intro _ [("k", 1)]
    (ex_intro _ _ (ex_intro _ _ (conj eq_refl (conj eq_refl (conj eq_refl eq_refl))))))).
Qed.
Print Assumptions C104_values_refuted.
