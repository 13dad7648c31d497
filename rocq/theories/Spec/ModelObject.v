(** What the sections of a model file mean, and a model object without caches. *)
From Coq Require Import Ascii String List Bool ZArith.
From Verif Require Import Base.Prelude Base.Dict Base.Strings Model.CompilerMisc Model.ModelObject.
Import ListNotations.
Open Scope string_scope.
Open Scope list_scope.

(** A triangular solver: every equation of the system holds in the answer, and
    the answer has no other entry. [value e sol v]: the expression [e] has value
    [v] when the names have the values [sol]. *)
Definition solves_systems {E V} (value : E -> dict V -> V -> Prop)
    (solve : dict E -> res (dict V)) : Prop :=
  forall c sol, solve c = Ok sol -> forall k,
    match dget c k with
    | Some e => exists v, dget sol k = Some v /\ value e sol v
    | None => dget sol k = None
    end.

(** The calibration lines after a write: the entries of the single positional
    argument, if there is exactly one, then those of the keywords. *)
Definition write {E} (lines : option (dict E)) (pargs : list (dict E)) (kwargs : dict E)
    : option (dict E) :=
  match lines with
  | None => None
  | Some d => Some (dupdate (match pargs with [u] => dupdate d u | _ => d end) kwargs)
  end.

(** An object without caches: every read is computed from the current lines and
    from the domain section of the file. *)
Section Uncached.
Context {E Sol View X Dom Sec : Type}.
Variable compute_calibration : option (dict E) -> res Sol.
Variable wrap : Sol -> res View.
Variable compute_exogenous : option (dict E) -> res X.
Variable compute_domain : option (dict E) -> Sec -> Sec * res (option Dom).

Fixpoint uncached (lines : option (dict E)) (sec : Sec) (h : list (action E))
    : list (seen View X Dom) :=
  match h with
  | [] => []
  | ASet pargs kwargs :: r =>
      SNone (match lines with Some _ => Ok tt | None => Err ExcKey end)
      :: uncached (write lines pargs kwargs) sec r
  | ACalibration :: r =>
      SCalibration (bind (compute_calibration lines) wrap) :: uncached lines sec r
  | AExogenous :: r => SExogenous (compute_exogenous lines) :: uncached lines sec r
  | ADomain :: r => SDomain (snd (compute_domain lines sec)) :: uncached lines sec r
  | AChanged :: r => SNone (Ok tt) :: uncached lines sec r
  end.
End Uncached.

(** What a history of writes leaves under a name. *)
Definition written {E} (k : string) (a : action E) (before : option E) : option E :=
  match a with
  | ASet pargs kwargs =>
      match dget kwargs k with
      | Some e => Some e
      | None =>
          match pargs with
          | [u] => match dget u k with Some e => Some e | None => before end
          | _ => before
          end
      end
  | _ => before
  end.

Definition last_written {E} (k : string) (start : option E) (h : list (action E)) : option E :=
  fold_left (fun b a => written k a b) h start.

(** The lines after a history. *)
Definition lines_after {E} (lines : option (dict E)) (h : list (action E)) : option (dict E) :=
  fold_left (fun l a => match a with ASet p k => write l p k | _ => l end) h lines.

(** The arguments of the writes are dictionaries (no repeated key). *)
Definition proper {E} (a : action E) : Prop :=
  match a with
  | ASet pargs kwargs => Forall (fun d => NoDup (dkeys d)) pargs /\ NoDup (dkeys kwargs)
  | _ => True
  end.

(** The key [key] of the exogenous section reads as the names [names]: comma
    separated, surrounded by any white space. *)
Definition trims_to (piece name : string) : Prop :=
  exists a b, piece = (a ++ name ++ b)%string /\ all_space a = true /\ all_space b = true /\
    no_outer_space name.

Definition reads_as (key : string) (names : list string) : Prop :=
  exists pieces, pieces <> [] /\ key = join "," pieces /\
    (forall p, In p pieces -> has_char "," p = false) /\ Forall2 trims_to pieces names.

(** Line [i] of the arbitrage block is well formed: its condition, if any, bears
    on control [i] at date 0. *)
Definition well_formed {X} (controls : list string) (i : nat) (l : line (X:=X)) : Prop :=
  match l with
  | Plain _ => True
  | Double _ _ v t _ => nth_error controls i = Some v /\ t = 0%Z
  end.
Definition eq_text {X} (str : X -> string) (l : line (X:=X)) : string :=
  match l with Plain e => str e | Double e _ _ _ _ => str e end.
Definition lb_text {X} (str : X -> string) (l : line (X:=X)) : string :=
  match l with Plain _ => "-inf" | Double _ lb _ _ _ => str lb end.
Definition ub_text {X} (str : X -> string) (l : line (X:=X)) : string :=
  match l with Plain _ => "inf" | Double _ _ _ _ ub => str ub end.
Definition has_condition {X} (l : line (X:=X)) : bool :=
  match l with Plain _ => false | Double _ _ _ _ _ => true end.
