(** The dictionary in which eval_formula evaluates (dolo/compiler/eval_formula.py 11-51), and Model.eval_formula
    (dolo/compiler/model.py 802-808).  As in Factories.v, formulas are syntax trees; here their names are spelled as
    dolang.symbolic does: an undated name s is "s_", a variable s(t) is "s__0_", "s__m1_" or "s__p1_".  Functions and
    operators are parameters: entries of the context under the name of a function are not followed. *)
From Coq Require Import String List Bool ZArith Arith.
From Verif.Base Require Import Prelude Dict.
From Verif.Model Require Import ModelPrint Factories.
Import ListNotations.
Open Scope string_scope.
Open Scope list_scope.

Section FormulaCall.
Context {V : Type}.
Variables (op1 : string -> V -> res V) (op2 : string -> V -> V -> res V) (nan : V).

(** dolang.symbolic.stringify_symbol. *)
Definition date_str (t : Z) : string :=
  match t with
  | Z0 => "0"
  | Zpos p => ("p" ++ nat_str (Pos.to_nat p))%string
  | Zneg p => ("m" ++ nat_str (Pos.to_nat p))%string
  end.
Definition ident (x : sym) : string :=
  match x with
  | SPar s => (s ++ "_")%string
  | SVar s t => (s ++ "__" ++ date_str t ++ "_")%string
  end.

(** What names stand for: a number, a pandas series (its rows), a function. *)
Inductive pv : Type := Num (v : V) | Series (l : list V) | Func.

(** 21-26: the context, copied; a CalibrationDict is its flat dictionary. *)
Definition py_context (context : option (dict V)) : dict pv :=
  map (fun e => (fst e, Num (snd e))) (match context with Some d => d | None => [] end).

(** 29-30: each of its names again, spelled by stringify_symbol; the names are listed before the loop, the values read
    in it. *)
Definition spell (dd : dict pv) : dict pv :=
  fold_left (fun d k => match dget d k with Some v => dset d (ident (SPar k)) v | None => d end) (dkeys dd) dd.

(** A table: its number of rows, its columns, its index. *)
Record frame : Type := Frame { fr_rows : nat; fr_columns : dict (nat -> V); fr_index : nat -> V }.

(** 43-44: list_variables lists the dated variables; a name that is not a column raises KeyError. *)
Fixpoint add_columns (df : frame) (l : list sym) (dd : dict pv) : res (dict pv) :=
  match l with
  | [] => Ok dd
  | SPar _ :: r => add_columns df r dd
  | SVar k t :: r =>
      match dget (fr_columns df) k with
      | None => Err ExcKey
      | Some col =>
          add_columns df r (dset dd (ident (SVar k t)) (Series (map (pd_shift nan (fr_rows df) col t) (seq 0 (fr_rows df)))))
      end
  end.

(** 36-45. *)
Definition names (e : expr V) (dataframe : option frame) (context : option (dict V)) : res (dict pv) :=
  let dd := dset (dset (spell (py_context context)) "log" Func) "exp" Func in
  match dataframe with
  | None => Ok dd
  | Some df => bind (add_columns df (expr_symbols e) dd) (fun dd =>
                 Ok (dset dd "t_" (Series (map (fr_index df) (seq 0 (fr_rows df))))))
  end.

(** Operations on series, row by row; series of a same table have the same index. *)
Definition lift1 (f : string) (a : pv) : res pv :=
  match a with
  | Num x => bind (op1 f x) (fun y => Ok (Num y))
  | Series l => bind (map_res (op1 f) l) (fun l' => Ok (Series l'))
  | Func => Err ExcType
  end.
Definition lift2 (f : string) (a b : pv) : res pv :=
  match a, b with
  | Num x, Num y => bind (op2 f x y) (fun z => Ok (Num z))
  | Series l, Num y => bind (map_res (fun x => op2 f x y) l) (fun l' => Ok (Series l'))
  | Num x, Series l => bind (map_res (fun y => op2 f x y) l) (fun l' => Ok (Series l'))
  | Series l, Series m => bind (map_res (fun p => op2 f (fst p) (snd p)) (combine l m)) (fun l' => Ok (Series l'))
  | _, _ => Err ExcType
  end.

(** 47-49: Python's eval of the spelled formula. *)
Fixpoint eval_py (dd : dict pv) (e : expr V) : res pv :=
  match e with
  | ENum c => Ok (Num c)
  | ESym x => match dget dd (ident x) with Some v => Ok v | None => Err ExcName end
  | EApp1 f a => bind (eval_py dd a) (lift1 f)
  | EApp2 f a b => bind (eval_py dd a) (fun x => bind (eval_py dd b) (lift2 f x))
  end.

(** 11-51. *)
Definition eval_formula_call (e : expr V) (dataframe : option frame) (context : option (dict V)) : res pv :=
  bind (names e dataframe context) (fun dd => eval_py dd e).

(** model.py 802-808; [calibration] is model.calibration. *)
Definition model_eval_formula (calibration : dict V) (e : expr V) (dataframe : option frame) (calib : option (dict V))
  : res pv :=
  eval_formula_call e dataframe (Some (match calib with None => calibration | Some c => c end)).

End FormulaCall.
Arguments Num {V}. Arguments Series {V}. Arguments Func {V}. Arguments Frame {V}.
