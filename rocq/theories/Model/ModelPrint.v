(** print(model) and the table shown by notebooks: dolo/compiler/model.py [__str__] and [_repr_html_],
    dolo/misc/termcolor.py [colored].  A residual is [None] when it is nan.  The text is the list of its lines; equations are
    the strings of model.equations (model.py:43-150, ModelObject.v), the residuals those of steady_state.residuals
    (SteadyState.v); names, texts of numbers and the translation to LaTeX are parameters. *)
From Coq Require Import String Ascii List Reals Arith DecimalString.
From Verif.Base Require Import Prelude Dict.
From Verif.Model Require Import Verbose.
Import ListNotations.
Open Scope string_scope.

(** termcolor.py:86-115 with color="red" (code 31) and no other option; [disabled]: ANSI_COLORS_DISABLED is set. *)
Definition escape : ascii := "027".
Definition colored_red (disabled : bool) (text : string) : string :=
  if disabled then text else String escape "[31m" ++ text ++ String escape "[0m".

(** [str(i)]. *)
Definition nat_str (i : nat) : string := NilZero.string_of_uint (Nat.to_uint i).

(** [abs(val) < 1e-8] and [abs(val) > 1e-8]; both are false for nan. *)
Definition tiny (v : option R) : bool :=
  match v with Some r => if Rlt_dec (Rabs r) (1 / 100000000) then true else false | None => false end.
Definition large (v : option R) : bool :=
  match v with Some r => if Rlt_dec (1 / 100000000) (Rabs r) then true else false | None => false end.

Section Text.
  Variable disabled : bool.
  Variable fixed4 : option R -> string.     (* "{:.4f}" *)

  (** model.py:691-695. *)
  Definition value_text (v : option R) : string :=
    let v := if tiny v then Some 0%R else v in
    if large v then colored_red disabled (fixed4 v) else fixed4 v.

  (** model.py:686-698, for the equation number [i]; [None] is an equation without residual, [rs] shorter than the
      equations raises IndexError. *)
  Fixpoint equation_lines (i : nat) (eqs : list string) (rs : option (list (option R))) : res (list string) :=
    match eqs with
    | [] => Ok []
    | eq :: r =>
        let number := " " ++ pad_right 2 (nat_str (S i)) ++ " : " in
        match rs with
        | None => bind (equation_lines (S i) r None) (fun l => Ok ((number ++ eq) :: l))
        | Some [] => Err ExcIndex
        | Some (v :: vs) =>
            bind (equation_lines (S i) r (Some vs)) (fun l => Ok ((number ++ value_text v ++ " : " ++ eq) :: l))
        end
    end.

  (** model.py:685, 699: the name of the block, its equations, an empty line. *)
  Definition block_lines (name : string) (eqs : list string) (rs : option (list (option R))) : res (list string) :=
    bind (equation_lines 0 eqs rs) (fun l => Ok (name :: l ++ [""])%list).

  (** model.py:666-672: definitions are shown as equations. *)
  Definition definition_lines (defs : dict string) : list string := map (fun e => fst e ++ " = " ++ snd e) defs.

  (** model.py:674-699: the blocks are those of the residuals, "transition" and "arbitrage" (steady_state.py:24-25), then
      "definitions"; line 684 raises KeyError when the model has no such block. *)
  Definition text_blocks (equations : dict (list string)) (defs : dict string) (transition arbitrage : list (option R))
    : res (list string) :=
    let equations := dset equations "definitions" (definition_lines defs) in
    let block name rs := match dget equations name with
                         | None => Err ExcKey
                         | Some eqs => block_lines name eqs rs
                         end in
    bind (block "transition" (Some transition)) (fun a =>
    bind (block "arbitrage" (Some arbitrage)) (fun b =>
    bind (block "definitions" None) (fun c => Ok (a ++ b ++ c)%list))).

  (** model.py:648-702. *)
  Definition model_str (name type filename : string) (equations : dict (list string)) (defs : dict string)
      (transition arbitrage : list (option R)) : res (list string) :=
    bind (text_blocks equations defs transition arbitrage) (fun l =>
    let quoted field text := "        " ++ field ++ ": """ ++ text in
    Ok (app [""; "        Model:"; "        ------"; quoted "name" (name ++ """"); quoted "type" (type ++ """");
             quoted "file" filename; ""; "Equations:"; "----------"; ""] l)).
End Text.

Section Html.
  Variables (fixed4 fixed3 : option R -> string).
  Variable tex : string -> string.          (* "$" + eq2tex + "$" of the left part, model.py:764-771, which is taken to be there *)

  (** model.py:756-763: residuals only for transition, arbitrage and arbitrage_exp. *)
  Definition html_value (v : option R) : string :=
    if large v then "<span style=""color: red;"">" ++ fixed4 v ++ "</span>" else fixed3 v.

  (** A row: the block (first row only), the equation, the residual (model.py:772-774). *)
  Definition html_row := (string * string * string)%type.

  (** model.py:751-776: the rows of a block. *)
  Fixpoint html_rows (h : string) (eqs : list string) (rs : option (list (option R))) : res (list html_row) :=
    match eqs with
    | [] => Ok []
    | eq :: r =>
        match rs with
        | None => bind (html_rows "" r None) (fun l => Ok ((h, tex eq, "") :: l))
        | Some [] => Err ExcIndex
        | Some (v :: vs) => bind (html_rows "" r (Some vs)) (fun l => Ok ((h, tex eq, html_value v) :: l))
        end
    end.

  (** model.py:749-777: the blocks, in their order; a name that residuals do not have raises KeyError (759). *)
  Fixpoint html_blocks (equations : dict (list string)) (residuals : dict (list (option R))) : res (list html_row) :=
    match equations with
    | [] => Ok []
    | (name, eqs) :: r =>
        bind (if existsb (String.eqb name) ["arbitrage"; "transition"; "arbitrage_exp"]
              then match dget residuals name with
                   | Some rs => html_rows name eqs (Some rs)
                   | None => match eqs with [] => Ok [] | _ => Err ExcKey end
                   end
              else html_rows name eqs None) (fun a =>
        bind (html_blocks r residuals) (fun b => Ok (a ++ b)%list))
    end.

  (** model.py:734-778: the rows of the table of equations. *)
  Definition model_html (equations : dict (list string)) (defs : dict string) (transition arbitrage : list (option R))
    : res (list html_row) :=
    html_blocks (dset equations "definitions" (definition_lines defs))
      [("transition", transition); ("arbitrage", arbitrage)].
End Html.
