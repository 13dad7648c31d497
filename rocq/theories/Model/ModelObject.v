(** The model object: calibration, domain and exogenous sections, caches, and
    complementarity conditions. /repo/dolo/compiler/model.py 42-128, 281-424,
    483-589; /repo/dolo/compiler/objects.py 21-46. *)
From Coq Require Import Ascii String List Bool Arith ZArith.
From Verif Require Import Base.Prelude Base.Dict Base.Strings Model.CompilerMisc.
Import ListNotations.
Open Scope string_scope.
Open Scope list_scope.

(** ** The calibration section *)
Section Calibration.
(** [E]: what the YAML file can give as a value (a number or the text of an
    expression); [V]: numbers. *)
Context {E V : Type}.
Variables (zero_expr nan_expr : E).
Variable solve_triangular_system : dict E -> res (dict V).

(** model.py:306-312 [initial_values] *)
Definition initial_value (group : string) : E :=
  if String.eqb group "exogenous" then zero_expr
  else if String.eqb group "expectations" then zero_expr
  else if String.eqb group "values" then zero_expr
  else nan_expr.

(** model.py:315-319 [initialized_from_model] *)
Definition initialized_from_model (group : string) : bool :=
  existsb (String.eqb group) ["values"; "expectations"; "direct_responses"].

(** model.py:290-302: the calibration lines. Keys and expressions are taken
    after [remove_timing] (parsing is dolang's). *)
Definition from_lines (lines : dict E) : dict E :=
  fold_left (fun c e => dset c (fst e) (snd e)) lines [].

(** model.py:320-327, 333-337: an entry is added only if the name has none. *)
Definition add_default (c : dict E) (k : string) (e : E) : dict E :=
  if dmem c k then c else dset c k e.

Definition add_definitions (c defs : dict E) : dict E :=
  fold_left (fun c e => add_default c (fst e) (snd e)) defs c.

(** model.py:329-337 *)
Fixpoint add_groups (symbols : loosy (list string)) (groups : list string) (c : dict E)
    : res (dict E) :=
  match groups with
  | [] => Ok c
  | g :: r =>
      if initialized_from_model g then add_groups symbols r c
      else
        bind (loosy_getitem symbols g) (fun syms =>
          add_groups symbols r
            (fold_left (fun c s => add_default c s (initial_value g)) syms c))
  end.

(** model.py:281-341 [get_calibration]; [lines] is the calibration section,
    empty when it is absent. *)
Definition get_calibration (symbols : loosy (list string)) (lines defs : dict E)
    : res (dict V) :=
  bind (add_groups symbols (dkeys (items symbols)) (add_definitions (from_lines lines) defs))
       solve_triangular_system.
End Calibration.

(** ** The domain section *)
Section Domain.
(** [E]: expressions for bounds; [V]: numbers; [Sol]: solved calibrations;
    [eval_bound] is dolang's [eval_data] on one bound (external). *)
Context {E V Sol : Type}.
Variable eval_bound : Sol -> E -> res V.

(** One end of an interval: an expression of the file, or a number put there by
    the backward-compatibility code. *)
Inductive bound : Type := BExpr (e : E) | BNum (v : V).
Definition section := dict (bound * bound).

(** model.py:353-355. [live]: whether [keys()] is a live view of the mapping, as
    for Python dictionaries (popping while iterating raises RuntimeError at the
    next step, also after the last key), or a list made beforehand. The mapping
    type comes from dolang, so both are modelled. Result: the mapping after the
    loop, and whether the loop raised. *)
Fixpoint first_extra (keys states : list string) : option string :=
  match keys with
  | [] => None
  | k :: r => if existsb (String.eqb k) states then first_extra r states else Some k
  end.

Definition drop_extra (live : bool) (states : list string) (d : section) : section * res unit :=
  if live then
    match first_extra (dkeys d) states with
    | None => (d, Ok tt)
    | Some k => (ddel d k, Err ExcRuntime)
    end
  else (filter (fun e => existsb (String.eqb (fst e)) states) d, Ok tt).

(** model.py:358-368: [min] and [max] are what [get_address] returns: a list of
    numbers, or None. The assignments stop at the first missing entry (the
    exception is swallowed). *)
Fixpoint fill (states : list string) (mn mx : list V) (d : section) : section :=
  match states, mn, mx with
  | s :: ss, a :: mn', b :: mx' => fill ss mn' mx' (dset d s (BNum a, BNum b))
  | _, _, _ => d
  end.

Definition backward (states : list string) (grid : option (list V) * option (list V))
    (d : section) : section :=
  match d, states, grid with
  | [], _ :: _, (Some mn, Some mx) => fill states mn mx d
  | _, _, _ => d
  end.

Definition eval_end (sol : Sol) (b : bound) : res V :=
  match b with BExpr e => eval_bound sol e | BNum v => Ok v end.

(** model.py:382 [eval_data(sdomain, calibration)] and objects.py:21-26: the
    domain is a dictionary in the order of the section. *)
Fixpoint eval_section (sol : Sol) (d : section) : res (dict (V * V)) :=
  match d with
  | [] => Ok []
  | (k, (a, b)) :: r =>
      bind (eval_end sol a) (fun x =>
        bind (eval_end sol b) (fun y =>
          bind (eval_section sol r) (fun l => Ok ((k, (x, y)) :: l))))
  end.

(** objects.py:36-46 [states], [min], [max] *)
Definition domain_states (d : dict (V * V)) : list string := dkeys d.
Definition domain_min (d : dict (V * V)) : list V := map (fun e => fst (snd e)) d.
Definition domain_max (d : dict (V * V)) : list V := map (fun e => snd (snd e)) d.

(** model.py:370-386, from the mapping as it is after the loop and the
    backward-compatibility code. *)
Definition finish_domain (sol : Sol) (states : list string) (d : section)
    : res (option (dict (V * V))) :=
  match d with
  | [] => Ok None
  | _ =>
      if Nat.ltb (List.length d) (List.length states) then Err (ExcGeneric "Missing domain for states")
      else bind (eval_section sol d) (fun l => Ok (Some l))
  end.

(** model.py:347-386 [get_domain]. [sec] is data["domain"], None when absent: the
    section is then a fresh dictionary that is not stored. Result: the section
    as it is left in data, and the answer. *)
Definition get_domain (live : bool) (states : list string)
    (grid : option (list V) * option (list V)) (calibration : res Sol) (sec : option section)
    : option section * res (option (dict (V * V))) :=
  match calibration with
  | Err e => (sec, Err e)
  | Ok sol =>
      let d := match sec with Some d => d | None => [] end in
      let keep d' := match sec with Some _ => Some d' | None => None end in
      match drop_extra live states d with
      | (d1, Err e) => (keep d1, Err e)
      | (d1, Ok _) =>
          let d2 := backward states grid d1 in
          (keep d2, finish_domain sol states d2)
      end
  end.
End Domain.
Arguments bound : clear implicits.
Arguments section : clear implicits.

(** ** The exogenous section: model.py:388-424 [get_exogenous] *)
Section Exogenous.
(** [P]: processes (built by dolang's [eval_data], external). *)
Context {P : Type}.

Inductive exo_section : Type :=
| ExoAbsent
| ExoProcess (p : P)                  (* old style: a process *)
| ExoList (ps : list P)               (* old style (2): a list of processes *)
| ExoDict (l : list (string * P)).    (* new style: names -> process *)

Inductive exo_result : Type :=
| NoExogenous                         (* {} *)
| OneProcess (p : P)
| Product (ps : list P).              (* ProductProcess *)

(** model.py:411-415: the names found in the section, in order. *)
Definition section_names (l : list (string * P)) : list string :=
  concat (map (fun e => map strip (split_char ","%char (fst e))) l).

Fixpoint eq_names (a b : list string) : bool :=
  match a, b with
  | [], [] => true
  | x :: a', y :: b' => String.eqb x y && eq_names a' b'
  | _, _ => false
  end.

Definition get_exogenous (syms : list string) (exo : res exo_section) : res exo_result :=
  bind exo (fun exo =>
    match exo with
    | ExoAbsent => Ok NoExogenous
    | ExoProcess p => Ok (OneProcess p)
    | ExoList ps => Ok (Product ps)
    | ExoDict l =>
        if eq_names syms (section_names l) then Ok (Product (map snd l))
        else Err (ExcGeneric "Shocks specification must match declaration order")
    end).
End Exogenous.
Arguments exo_section : clear implicits.
Arguments exo_result : clear implicits.

(** ** The caches: model.py:533-589 *)
Section Object.
(** [E]: calibration entries; [Sol]: solved calibrations; [View]: CalibrationDict
    objects; [X]: exogenous processes; [Dom]: domains; [Sec]: the domain section.
    The functions are those above, with the other sections of the file fixed. *)
Context {E Sol View X Dom Sec : Type}.
Variable compute_calibration : option (dict E) -> res Sol.
Variable wrap : Sol -> res View.
Variable compute_exogenous : option (dict E) -> res X.
Variable compute_domain : option (dict E) -> Sec -> Sec * res (option Dom).

(** data["calibration"] (None when the section is absent), data["domain"], and
    the attributes [__calibration__], [__exogenous__], [__domain__]. *)
Record object : Type := Obj {
  o_lines : option (dict E);
  o_sec : Sec;
  o_calibration : option View;
  o_exogenous : option X;
  o_domain : option Dom }.

(** model.py:553-556 [set_changed] *)
Definition set_changed (o : object) : object :=
  Obj (o_lines o) (o_sec o) None None None.

(** model.py:566-567: one call without positional argument. *)
Definition set_keywords (o : object) (kwargs : dict E) : object * res unit :=
  let o' := set_changed o in
  match o_lines o' with
  | None => (o', Err ExcKey)
  | Some d =>
      (Obj (Some (dupdate d kwargs)) (o_sec o') (o_calibration o') (o_exogenous o') (o_domain o'),
       Ok tt)
  end.

(** model.py:563-567 [set_calibration] *)
Definition set_calibration (o : object) (pargs : list (dict E)) (kwargs : dict E)
    : object * res unit :=
  match pargs with
  | [d] =>
      match set_keywords o d with
      | (o', Err e) => (o', Err e)
      | (o', Ok _) => set_keywords o' kwargs
      end
  | _ => set_keywords o kwargs
  end.

(** model.py:569-577 [calibration] *)
Definition read_calibration (o : object) : object * res View :=
  match o_calibration o with
  | Some c => (o, Ok c)
  | None =>
      match bind (compute_calibration (o_lines o)) wrap with
      | Ok c => (Obj (o_lines o) (o_sec o) (Some c) (o_exogenous o) (o_domain o), Ok c)
      | Err e => (o, Err e)
      end
  end.

(** model.py:579-583 [exogenous] *)
Definition read_exogenous (o : object) : object * res X :=
  match o_exogenous o with
  | Some x => (o, Ok x)
  | None =>
      match compute_exogenous (o_lines o) with
      | Ok x => (Obj (o_lines o) (o_sec o) (o_calibration o) (Some x) (o_domain o), Ok x)
      | Err e => (o, Err e)
      end
  end.

(** model.py:585-589 [domain]: an answer None is not remembered. *)
Definition read_domain (o : object) : object * res (option Dom) :=
  match o_domain o with
  | Some d => (o, Ok (Some d))
  | None =>
      match compute_domain (o_lines o) (o_sec o) with
      | (s, Ok d) => (Obj (o_lines o) s (o_calibration o) (o_exogenous o) d, Ok d)
      | (s, Err e) => (Obj (o_lines o) s (o_calibration o) (o_exogenous o) None, Err e)
      end
  end.

(** model.py:533-542 [__init__] without the optional checks. *)
Definition new_object (lines : option (dict E)) (sec : Sec) : object :=
  Obj lines sec None None None.

(** What a user can do with the object, and what they see. *)
Inductive action : Type :=
| ASet (pargs : list (dict E)) (kwargs : dict E)
| ACalibration
| AExogenous
| ADomain
| AChanged.

Inductive seen : Type :=
| SNone (r : res unit)
| SCalibration (r : res View)
| SExogenous (r : res X)
| SDomain (r : res (option Dom)).

Definition act (o : object) (a : action) : object * seen :=
  match a with
  | ASet pargs kwargs => let (o', r) := set_calibration o pargs kwargs in (o', SNone r)
  | ACalibration => let (o', r) := read_calibration o in (o', SCalibration r)
  | AExogenous => let (o', r) := read_exogenous o in (o', SExogenous r)
  | ADomain => let (o', r) := read_domain o in (o', SDomain r)
  | AChanged => (set_changed o, SNone (Ok tt))
  end.

Fixpoint history (o : object) (h : list action) : list seen :=
  match h with
  | [] => []
  | a :: r => let (o', s) := act o a in s :: history o' r
  end.
End Object.
Arguments action : clear implicits.
Arguments seen : clear implicits.
Arguments object : clear implicits.

(** ** Complementarity conditions *)
Section Complementarities.
(** [X]: parsed expressions; [str_expression] prints them (dolang). *)
Context {X : Type}.
Variable str_expression : X -> string.

(** One line of the 'arbitrage' block, parsed: a plain equation, or an equation
    with a condition [lb <= v[t] <= ub] (node double_complementarity). *)
Inductive line : Type :=
| Plain (eq : X)
| Double (eq lb : X) (v : string) (t : Z) (ub : X).

(** model.py:72-102: equations, lower and upper bounds, and whether there is a
    condition. *)
Fixpoint arbitrage_loop (controls : list string) (i : nat) (l : list line)
    : res (list string * list string * list string * bool) :=
  match l with
  | [] => Ok ([], [], [], false)
  | Plain eq :: r =>
      bind (arbitrage_loop controls (S i) r) (fun q =>
        let '(e, lb, ub, w) := q in
        Ok (str_expression eq :: e, "-inf" :: lb, "inf" :: ub, w))
  | Double eq lo v t hi :: r =>
      match nth_error controls i with
      | None => Err ExcIndex
      | Some c =>
          if String.eqb v c && Z.eqb t 0 then
            bind (arbitrage_loop controls (S i) r) (fun q =>
              let '(e, lb, ub, w) := q in
              Ok (str_expression eq :: e, str_expression lo :: lb, str_expression hi :: ub, true))
          else Err (ExcGeneric "Incorrect variable in complementarity")
      end
  end.

(** model.py:102-105: the entries 'arbitrage', 'arbitrage_lb', 'arbitrage_ub' of
    the dictionary of equations. *)
Definition arbitrage_entries (controls : list string) (l : list line)
    : res (dict (list string)) :=
  bind (arbitrage_loop controls 0 l) (fun q =>
    let '(e, lb, ub, w) := q in
    Ok (if w then [("arbitrage", e); ("arbitrage_lb", lb); ("arbitrage_ub", ub)]
        else [("arbitrage", e)])).
End Complementarities.

(** model.py:501-527 [decode_complementarity]. The regular expression
    (line 503: three groups of any characters separated by two signs "<=") is
    greedy, and a dot does not match a newline: the groups are cut at the last
    two "<=" of the first line. *)
Fixpoint last_three (l : list string) : option (list string * string * string) :=
  match l with
  | [] => None
  | [_] => None
  | [_; _] => None
  | [a; b; c] => Some ([a], b, c)
  | a :: r =>
      match last_three r with
      | None => None
      | Some (first, b, c) => Some (a :: first, b, c)
      end
  end.

Definition decode_complementarity (comp control : string) : res (string * string) :=
  match last_three (split_le (first_line comp)) with
  | None => Err (ExcGeneric "Unable to parse complementarity condition")
  | Some (first, b, c) =>
      if String.eqb (strip b) control then Ok (strip (join "<=" first), strip c)
      else Err (ExcGeneric "Complementarity condition incorrect")
  end.

(** model.py:783-794 [x_bounds]: the pair of functions used as bounds. *)
Definition x_bounds {F} (functions : dict F) : res (option (F * F)) :=
  let get k := match dget functions k with Some f => Ok f | None => Err ExcKey end in
  if dmem functions "controls_ub" then
    bind (get "controls_lb") (fun a => bind (get "controls_ub") (fun b => Ok (Some (a, b))))
  else if dmem functions "arbitrage_ub" then
    bind (get "arbitrage_lb") (fun a => bind (get "arbitrage_ub") (fun b => Ok (Some (a, b))))
  else Ok None.

(** The object for a given file: [symbols], [defs], [grid] (options:grid) and the
    exogenous section are fixed, only the calibration changes. [literal] turns a
    number into a calibration entry (misc.py:10 solves the solved calibration
    again), [eval_exogenous] builds the processes (dolang's [eval_data]), None when the
    section is absent. *)
Section File.
Context {E V B P : Type}.
Variables (zero_expr nan_expr : E) (nan : V) (literal : V -> E).
Variable solve_triangular_system : dict E -> res (dict V).
Variable symbols : loosy (list string).
Variable defs : dict E.
Variable eval_bound : dict V -> B -> res V.
Variable live : bool.
Variable grid : option (list V) * option (list V).
Variable eval_exogenous : option (dict V -> res (exo_section P)).

(** model.py:281-341 *)
Definition file_calibration (lines : option (dict E)) : res (dict V) :=
  get_calibration zero_expr nan_expr solve_triangular_system symbols
    (match lines with Some l => l | None => [] end) defs.

(** model.py:573-576 *)
Definition file_wrap (sol : dict V) : res (calibration_dict V) :=
  bind (calibration_to_vector solve_triangular_system nan symbols
          (map (fun e => (fst e, literal (snd e))) sol)) (fun calib =>
    calibration_dict_init symbols calib equivalent_symbols).

(** model.py:388-424, 579-583: without the section nothing else is read (390-391), and the
    declared names are read for the new style only (409). *)
Definition file_exogenous (lines : option (dict E)) : res (exo_result P) :=
  match eval_exogenous with
  | None => get_exogenous [] (Ok ExoAbsent)
  | Some ev =>
      bind (file_calibration lines) (fun sol =>
        bind (ev sol) (fun s =>
          match s with
          | ExoDict _ => bind (loosy_getitem symbols "exogenous") (fun syms => get_exogenous syms (Ok s))
          | ExoAbsent => get_exogenous [] (Ok ExoAbsent)
          | ExoProcess p => get_exogenous [] (Ok (ExoProcess p))
          | ExoList ps => get_exogenous [] (Ok (ExoList ps))
          end))
  end.

(** model.py:347-386, 585-589 *)
Definition file_domain (lines : option (dict E)) (sec : option (section B V))
    : option (section B V) * res (option (dict (V * V))) :=
  match loosy_getitem symbols "states" with
  | Err e =>
      (sec, match file_calibration lines with Err e' => Err e' | Ok _ => Err e end)
  | Ok states => get_domain eval_bound live states grid (file_calibration lines) sec
  end.

Definition file_history (lines : option (dict E)) (sec : option (section B V))
    (h : list (action E)) :=
  history file_calibration file_wrap file_exogenous file_domain (new_object lines sec) h.
End File.
