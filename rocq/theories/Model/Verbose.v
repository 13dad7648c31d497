(** What verbose=True prints: dolo/misc/itprinter.py [IterationsPrinter], the log of
    dolo/numeric/optimize/newton.py [newton] and the rows of dolo/algos/time_iteration.py.
    Standard output is the list of the lines written.  Lines written before an exception stay
    written.  Elapsed times come from the clock: they are arguments here. *)
From Coq Require Import String Ascii List ZArith DecimalString Reals Arith Lia.
From Verif.Base Require Import Prelude Norms Ext Dict.
From Verif.Model Require Import Newton TimeIteration.
Import ListNotations.
Open Scope string_scope.

(** [" " * k] and ["-" * k]. *)
Fixpoint times (c : ascii) (k : nat) : string :=
  match k with O => "" | S k' => String c (times c k') end.

(** "{:w}" of a number (numbers are aligned to the right) and of a string (to the left). *)
Definition pad_left (w : nat) (t : string) : string := times " " (w - String.length t) ++ t.
Definition pad_right (w : nat) (t : string) : string := t ++ times " " (w - String.length t).

(** [str(z)] of an integer. *)
Definition int_str (z : Z) : string := NilZero.string_of_int (Z.to_int z).

(** The type given with a name (itprinter.py:5): [int], [float], or anything else. *)
Inductive col_type := TyInt | TyFloat | TyOther.

Section Printer.
  (** Floating-point numbers; ["%.3e"] and [repr] of one, and ["%.3e"] of an integer. *)
  Variable F : Type.
  Variables (sci : F -> string) (repr : F -> string) (sci_int : Z -> string).

  Inductive cell := CInt (z : Z) | CFloat (x : F).

  (** itprinter.py:13-18: a format, "{:mm}" or "{:9.3e}". *)
  Inductive fmt := FWidth (mm : nat) | FSci.

  Definition apply_fmt (f : fmt) (v : cell) : string :=
    match f, v with
    | FWidth mm, CInt z => pad_left mm (int_str z)
    | FWidth mm, CFloat x => pad_left mm (repr x)
    | FSci, CInt z => pad_left 9 (sci_int z)
    | FSci, CFloat x => pad_left 9 (sci x)
    end.

  (** itprinter.py:10-18. *)
  Definition fmt_of (e : string * col_type) : list fmt :=
    match snd e with
    | TyInt => [FWidth (Nat.max 4 (String.length (fst e)))]
    | TyFloat => [FSci]
    | TyOther => []
    end.

  (** The printer of itprinter.py:5-25 without its clock; [dict(knames)] is line 6. *)
  Record printer := Printer {
    pr_verbose : bool;
    pr_columns : list (string * col_type);      (* names and types *)
    pr_fmts : list fmt
  }.

  Definition new_printer (knames : list (string * col_type)) (verbose : bool) : printer :=
    let k := dupdate [] knames in Printer verbose k (flat_map fmt_of k).

  (** [fmt_str.format] applied to the values with the format of line 19: values beyond the formats are ignored, and
      there are never fewer values than formats. *)
  Definition format_row (fs : list fmt) (vals : list cell) : string :=
    "| " ++ String.concat " | " (map (fun fv => apply_fmt (fst fv) (snd fv)) (combine fs vals)) ++ " |".

  (** itprinter.py:24. *)
  Definition width (p : printer) : nat :=
    String.length (format_row (pr_fmts p) (map (fun _ => CInt 0) (pr_columns p))).

  (** itprinter.py:28-31. *)
  Definition print_line (p : printer) : list string :=
    if pr_verbose p then [times "-" (width p)] else [].

  (** itprinter.py:44-49: the names. *)
  Definition title_of (e : string * col_type) : string :=
    match snd e with
    | TyInt => " " ++ pad_right 4 (fst e) ++ " |"
    | TyFloat => " " ++ pad_right 9 (fst e) ++ " |"
    | TyOther => ""
    end.
  Definition title (p : printer) : string := "|" ++ String.concat "" (map title_of (pr_columns p)).

  (** itprinter.py:38-39 and 63: a message, closed by a bar at the right edge. *)
  Definition boxed (p : printer) (ll : string) : string :=
    ll ++ times " " (width p - String.length ll - 1) ++ "|".

  (** itprinter.py:33-52. *)
  Definition print_header (p : printer) (msg : option string) : list string :=
    if pr_verbose p then
      print_line p ++
      match msg with Some m => boxed p ("| " ++ m) :: print_line p | None => [] end ++
      title p :: print_line p
    else [].

  (** [[args[k] for k in self.names]]. *)
  Fixpoint cells (args : dict cell) (names : list string) : res (list cell) :=
    match names with
    | [] => Ok []
    | k :: r => match dget args k with
                | None => Err ExcKey
                | Some v => bind (cells args r) (fun l => Ok (v :: l))
                end
    end.

  (** itprinter.py:54-58. *)
  Definition print_iteration (p : printer) (args : dict cell) : res (list string) :=
    if pr_verbose p then
      bind (cells args (dkeys (pr_columns p))) (fun vals => Ok [format_row (pr_fmts p) vals])
    else Ok [].

  (** itprinter.py:60-68; [elapsed] is the clock's time with two decimals. *)
  Definition print_finished (p : printer) (elapsed : string) : list string :=
    if pr_verbose p then
      print_line p ++ boxed p ("| Elapsed: " ++ elapsed ++ " seconds.") :: print_line p ++ [""]
    else [].
End Printer.
Arguments CInt {F} z.
Arguments CFloat {F} x.
Arguments width {F} sci repr sci_int p.
Arguments print_header {F} sci repr sci_int p msg.
Arguments print_iteration {F} sci repr sci_int p args.
Arguments print_finished {F} sci repr sci_int p elapsed.

(** improved_time_iteration.py:281-292, time_iteration.py:174-181 and value_iteration.py:102-111. *)
Definition iti_columns : list (string * col_type) :=
  [("N", TyInt); ("f_x", TyFloat); ("d_x", TyFloat); ("Time_residuals", TyFloat); ("Time_inversion", TyFloat);
   ("Time_search", TyFloat); ("Lambda_0", TyFloat); ("N_invert", TyInt); ("N_search", TyInt)].
Definition ti_columns : list (string * col_type) :=
  [("N", TyInt); ("Error", TyFloat); ("Gain", TyFloat); ("Time", TyFloat); ("nit", TyInt)].
Definition vi_columns : list (string * col_type) :=
  [("N", TyInt); ("Error_V", TyFloat); ("Gain_V", TyFloat); ("Error_x", TyFloat); ("Gain_x", TyFloat);
   ("Eval_n", TyInt); ("Time", TyFloat)].

Open Scope R_scope.

(** A line of newton.py:126-130 ("System was solved after iteration") or 151. *)
Inductive newton_line :=
  | Stepped (it : nat) (err : R) (bck : nat)
  | Solved (it : nat) (error_0 : R).

Section NewtonLog.
  Variable Jac : Type.
  Variable n : nat.
  Variable f : (nat -> R) -> (nat -> R) * Jac.
  Variable lsolve : Jac -> (nat -> R) -> res (nat -> R).
  Variable tol : R.

  (** newton.py:141-146, with the values of [err] and [bck] when the loop ends. *)
  Fixpoint backtrack_log (remaining bck : nat) (error_0 : R) (x dx : nat -> R) : (nat -> R) * R * nat :=
    let xx := trial x dx bck in
    let err := supnorm n (fst (f xx)) in
    match remaining with
    | O => (xx, err, bck)
    | S r => if Rlt_dec err error_0 then (xx, err, bck) else backtrack_log r (S bck) error_0 x dx
    end.

  (** newton.py:113-157 with verbose=True: the lines written, and what is returned or raised. *)
  Fixpoint newton_log (fuel it : nat) (x : nat -> R) : list newton_line * res ((nat -> R) * nat * bool) :=
    match fuel with
    | O => ([], Ok (x, it, false))
    | S fuel' =>
        if Nat.eqb n 0 then ([], Err ExcValue) else
        let '(v, dv) := f x in
        let error_0 := supnorm n v in
        if Rlt_dec error_0 tol then ([Solved it error_0], Ok (x, it, true))
        else match lsolve dv v with
             | Err e => ([], Err e)
             | Ok dx =>
                 let '(xx, err, bck) := backtrack_log (maxbacksteps - 1) 0 error_0 x dx in
                 let '(lines, r) := newton_log fuel' (S it) xx in
                 (Stepped (S it) err bck :: lines, r)
             end
    end.
End NewtonLog.
Arguments newton_log {Jac} n f lsolve tol fuel it x.
Arguments backtrack_log {Jac} n f remaining bck error_0 x dx.

(** A row of time_iteration.py:230; [tr_gain] is [None] for nan or inf. *)
Record ti_row := TiRow { tr_n : nat; tr_error : R; tr_gain : option R; tr_nit : nat }.

(** time_iteration.py:219-220: [err / err_0], where [err_0] is nan before the first pass. *)
Definition gain (prev : option R) (err : R) : option R :=
  match prev with
  | None => None
  | Some e => if Req_EM_T e 0 then None else Some (err / e)
  end.

Section TiRows.
  Variable size : nat.
  (** The inner solve of one pass (time_iteration.py:210-215), with its number of iterations. *)
  Variable inner : (nat -> R) -> res ((nat -> R) * nat * bool).
  Variable tol : R.

  (** time_iteration.py:192-230 with verbose=True. *)
  Fixpoint ti_rows (fuel it : nat) (err : R) (prev : option R) (c0 : nat -> R) (controls : option (nat -> R))
    : list ti_row * res (option (nat -> R) * nat * R) :=
    match fuel with
    | O => ([], Ok (controls, it, err))
    | S fuel' =>
        if Rlt_dec tol err then
          if Nat.eqb size 0 then ([], Err ExcValue) else
          match inner c0 with
          | Err e => ([], Err e)
          | Ok (c, nit, _) =>
              let e := supnorm size (fun q => c q - c0 q) in
              let '(rows, r) := ti_rows fuel' (S it) e (Some e) c (Some c) in
              (TiRow (S it) e (gain prev e) nit :: rows, r)
          end
        else ([], Ok (controls, it, err))
    end.
End TiRows.
