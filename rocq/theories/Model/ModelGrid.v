(** The grid of a model: [endo_grid], [discretize] (grid part), [get_type] and [get_address] of
    /repo/dolo/compiler/model.py (426-498, 591-603), [CartesianDomain.discretize] of
    /repo/dolo/compiler/objects.py (28-33).
    [self.data] is the tree of nodes made by yaml.compose (model_import.py:12), seen through the accessors that
    dolang adds to it: [get] exists on mappings only. *)
From Coq Require Import String Ascii Reals List Arith Bool.
From Verif.Base Require Import Prelude Dict Strings.
From Verif.Model Require Import Grids ModelObject.
Import ListNotations.

(** Nodes carry a tag: the one written in the file with its exclamation mark, or the standard one. *)
Inductive ynode : Type :=
| YScalar (tag text : string)
| YSeq (tag : string) (l : list ynode)
| YMap (tag : string) (l : list (string * ynode)).
Definition ytag (d : ynode) : string := match d with YScalar t _ | YSeq t _ | YMap t _ => t end.
(** The tag that yaml gives to a mapping without tag. *)
Definition map_tag : string := "tag:yaml.org,2002:map".

(** [d.get(k)] *)
Definition yget (d : ynode) (k : string) : res (option ynode) :=
  match d with YMap _ l => Ok (dget l k) | _ => Err ExcAttribute end.

(** [s.strip("!")] *)
Fixpoint lstrip_bang (s : string) : string :=
  match s with String a r => if Ascii.eqb a "!"%char then lstrip_bang r else s | EmptyString => EmptyString end.
Fixpoint rstrip_bang (s : string) : string :=
  match s with
  | EmptyString => EmptyString
  | String a r => match rstrip_bang r with
                  | EmptyString => if Ascii.eqb a "!"%char then EmptyString else String a EmptyString
                  | t => String a t
                  end
  end.
Definition strip_bang (s : string) : string := rstrip_bang (lstrip_bang s).

(** [s.lower()] (ASCII letters). *)
Definition lower_char (a : ascii) : ascii :=
  let n := nat_of_ascii a in if Nat.leb 65 n && Nat.leb n 90 then ascii_of_nat (n + 32)%nat else a.
Fixpoint lower (s : string) : string :=
  match s with String a r => String (lower_char a) (lower r) | EmptyString => EmptyString end.

(** model.py:474-480 [get_type]; [None] is Python's None, which has neither a tag nor a method get. *)
Definition get_type (d : option ynode) : res (option string) :=
  match d with Some n => Ok (Some (strip_bang (ytag n))) | None => Err ExcAttribute end.

(** model.py:492-497: down one address, already split at the colons. *)
Fixpoint descend (data : ynode) (fields : list string) : res (option ynode) :=
  match fields with
  | [] => Ok (Some data)
  | f :: r => bind (yget data f) (fun o => match o with None => Ok None | Some d => descend d r end)
  end.
Section Address.
  Context {A : Type}.
  (** dolang's [eval_data]. *)
  Variable eval : ynode -> res A.
  (** 483-498 [get_address] of one address. *)
  Definition get_address1 (data : ynode) (address : string) : res (option A) :=
    bind (descend data (split_char ":"%char address)) (fun o =>
    match o with None => Ok None | Some d => bind (eval d) (fun a => Ok (Some a)) end).
  (** 485-491: the list form looks all the addresses up before choosing the first one found. *)
  Fixpoint get_all (data : ynode) (addresses : list string) : res (list A) :=
    match addresses with
    | [] => Ok []
    | a :: r => bind (get_address1 data a) (fun o =>
                bind (get_all data r) (fun l => Ok (match o with Some v => v :: l | None => l end)))
    end.
  Definition get_address (data : ynode) (addresses : list string) : res (option A) :=
    bind (get_all data addresses) (fun l => Ok (hd_error l)).
End Address.

(** The three kinds of grids; the Smolyak grid is built by the interpolation package from these arguments. *)
Inductive egrid : Type :=
| EUniform (g : ugrid)
| ENonUniform (g : nugrid)
| ESmolyak (min max : list R) (mu : nat).

Section EndoGrid.
  (** [eval_data] on a list of orders, on the [mu] of a Smolyak grid, and on the nodes of an axis at the calibration. *)
  Variable eval_orders : ynode -> res (list nat).
  Variable eval_mu : ynode -> res nat.
  Variable eval_axis : ynode -> res (list R).

  (** 458: iteration over the items of the section; a mapping or a scalar cannot be read that way. *)
  Fixpoint eval_axes (l : list ynode) : res (list (list R)) :=
    match l with
    | [] => Ok []
    | n :: r => bind (eval_axis n) (fun a => bind (eval_axes r) (fun t => Ok (a :: t)))
    end.

  (** 427-471.  [domain] is the answer of [get_domain]; None has no attribute min.  438-441 are never reached with
      a None: [get_type] returns a string or raises. *)
  Definition endo_grid (data : ynode) (domain : res (option (dict (R * R)))) : res egrid :=
    bind domain (fun od =>
    match od with
    | None => Err ExcAttribute
    | Some d =>
        let min := domain_min d in
        let max := domain_max d in
        bind (yget data "options") (fun oo =>
        bind (match oo with Some o => yget o "grid" | None => Ok None end) (fun og =>
        bind (get_type og) (fun ot =>
        bind (match ot with
              | Some t => Ok (Some t)
              | None => get_address (fun n => match n with YScalar _ s => Ok s | _ => Err ExcType end)
                                    data ["options:grid:type"; "options:grid_type"]%string
              end) (fun ot2 =>
        match ot2 with
        | None => Err (ExcGeneric "Missing grid geometry")
        | Some t =>
            let k := lower t in
            if (String.eqb k "cartesian" || String.eqb k "cartesiangrid")%bool then
              bind (get_address eval_orders data ["options:grid:n"; "options:grid:orders"]%string) (fun oo =>
              let orders := match oo with Some l => l | None => repeat 20%nat (length min) end in
              bind (uniform_grid min max orders) (fun g => Ok (EUniform g)))
            else if (String.eqb k "nonuniformcartesian" || String.eqb k "nonuniformcartesiangrid")%bool then
              match og with
              | Some (YSeq _ l) => bind (eval_axes l) (fun axes => bind (nonuniform_grid axes) (fun g => Ok (ENonUniform g)))
              | _ => Err ExcType
              end
            else if (String.eqb k "smolyak" || String.eqb k "smolyakgrid")%bool then
              bind (get_address eval_mu data ["options:grid:mu"]%string) (fun om =>
              Ok (ESmolyak min max (match om with Some m => m | None => 2%nat end)))
            else Err (ExcGeneric "Unknown grid type.")
        end))))
    end).

  (** objects.py:28-33 *)
  Definition domain_discretize (d : dict (R * R)) (n : option (list nat)) : res ugrid :=
    let n := match n with Some l => l | None => repeat 10%nat (length (domain_min d)) end in
    uniform_grid (domain_min d) (domain_max d) n.

  (** model.py:595-598: the endogenous grid used by the solution algorithms.  [options]: the argument
      [grid_options], of which only the key n is known to [domain.discretize]. *)
  Definition discretize_grid (data : ynode) (domain : res (option (dict (R * R))))
      (options : option (option (list nat))) : res egrid :=
    match options with
    | None => endo_grid data domain
    | Some n => bind domain (fun od =>
        match od with
        | None => Err ExcAttribute
        | Some d => bind (domain_discretize d n) (fun g => Ok (EUniform g))
        end)
    end.
End EndoGrid.
