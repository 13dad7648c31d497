(** Property theorems C150 and C151: what verbose=True prints. *)
From Coq Require Import String Ascii List ZArith Reals Arith Lia Lra.
From Verif.Base Require Import Prelude Norms Ext Dict.
From Verif.Model Require Import Newton TimeIteration Verbose.
From Verif.Spec Require Import Verbose.
From Verif.Proofs Require Import VerboseProofs.
Import ListNotations.
Open Scope string_scope.

(** C150.  A table of iterations which is not verbose prints nothing and raises nothing, whatever it is given. *)
Theorem C150_silent : forall F sci repr sci_int cols,
  let p := new_printer cols false in
  (forall msg, @print_header F sci repr sci_int p msg = []) /\
  (forall args, print_iteration sci repr sci_int p args = Ok []) /\
  (forall elapsed, print_finished sci repr sci_int p elapsed = []).
Proof. exact silent. Qed.
Print Assumptions C150_silent.

(** A verbose one: the lines of the header all have the width of the table exactly when every name fits in its column and
    the message fits in the table. *)
Theorem C150_header : forall F sci repr sci_int cols msg,
  plain_columns cols -> String.length (sci_int 0%Z) = 9%nat ->
  (forall l, In l (@print_header F sci repr sci_int (new_printer cols true) (Some msg)) -> String.length l = table_width cols) <->
  (names_fit cols /\ (String.length msg + 3 <= table_width cols)%nat).
Proof. exact header_aligned_lines. Qed.
Print Assumptions C150_header.

(** Then one line of the header shows every name at the start of its column... *)
Theorem C150_names : forall F sci repr sci_int cols msg,
  plain_columns cols -> String.length (sci_int 0%Z) = 9%nat -> names_fit cols ->
  exists title, In title (@print_header F sci repr sci_int (new_printer cols true) msg) /\
  forall k e, nth_error cols k = Some e ->
    substring (col_start cols k) (col_width e) title = pad_right (col_width e) (fst e).
Proof. exact header_names. Qed.
Print Assumptions C150_names.

(** ... and an iteration given a value for every name prints one line; when the values fit, the line has the width of the
    table and each value stands in the column of its name. *)
Theorem C150_values : forall F sci repr sci_int cols (args : dict (cell F)),
  plain_columns cols ->
  (forall k, In k (map fst cols) -> dget args k <> None) ->
  exists line, print_iteration sci repr sci_int (new_printer cols true) args = Ok [line] /\
    ((forall e v, In e cols -> dget args (fst e) = Some v ->
        (String.length (cell_text sci repr sci_int e v) <= col_width e)%nat) ->
     String.length line = table_width cols /\
     forall k e v, nth_error cols k = Some e -> dget args (fst e) = Some v ->
       substring (col_start cols k) (col_width e) line = pad_left (col_width e) (cell_text sci repr sci_int e v)).
Proof. exact row_values. Qed.
Print Assumptions C150_values.

(** It raises KeyError exactly when a name has no value. *)
Theorem C150_missing : forall F sci repr sci_int cols (args : dict (cell F)),
  plain_columns cols ->
  (print_iteration sci repr sci_int (new_printer cols true) args = Err ExcKey <->
   exists k, In k (map fst cols) /\ dget args k = None).
Proof. exact row_raises. Qed.
Print Assumptions C150_missing.

(** Where the lines are: rules above and below the names, around the message and around the time elapsed, all of the width
    of the table; the message and the time are closed by a bar, at the right edge if the text fits. *)
Theorem C150_layout : forall F sci repr sci_int cols,
  plain_columns cols -> String.length (sci_int 0%Z) = 9%nat ->
  let p := new_printer cols true in
  let rule := times "-"%char (table_width cols) in
  exists names,
    @print_header F sci repr sci_int p None = [rule; names; rule] /\
    (forall msg, exists pad, print_header sci repr sci_int p (Some msg) = [rule; "| " ++ msg ++ times " "%char pad ++ "|"; rule; names; rule]) /\
    (forall elapsed, exists pad,
       let line := "| Elapsed: " ++ elapsed ++ " seconds." ++ times " "%char pad ++ "|" in
       print_finished sci repr sci_int p elapsed = [rule; line; rule; ""] /\
       ((21 + String.length elapsed <= table_width cols)%nat -> String.length line = table_width cols)).
Proof. exact table_layout. Qed.
Print Assumptions C150_layout.

(** The table of improved_time_iteration is not aligned: its names exceed its rules by twelve characters. *)
Theorem C150_improved_refuted : forall F sci repr sci_int msg,
  String.length (sci_int 0%Z) = 9%nat ->
  exists title, In title (@print_header F sci repr sci_int (new_printer iti_columns true) msg) /\
    (String.length title = 12 + table_width iti_columns)%nat /\
    In (times "-"%char (table_width iti_columns)) (@print_header F sci repr sci_int (new_printer iti_columns true) msg).
Proof. exact iti_title_long. Qed.
Print Assumptions C150_improved_refuted.

(** The tables of time_iteration and value_iteration are. *)
Example C150_case : plain_columns ti_columns /\ names_fit ti_columns /\ plain_columns vi_columns /\ names_fit vi_columns /\
  print_iteration (fun s : string => s) (fun s => s) (fun _ => "0.000e+00") (new_printer ti_columns true)
    [("N", CInt 12); ("Error", CFloat "1.250e-03"); ("Gain", CFloat "nan"); ("Time", CFloat "2.000e-01"); ("nit", CInt 4)] =
  Ok ["|   12 | 1.250e-03 |       nan | 2.000e-01 |    4 |"] /\
  print_header (fun s : string => s) (fun s => s) (fun _ => "0.000e+00") (new_printer ti_columns true) None =
  ["---------------------------------------------------";
   "| N    | Error     | Gain      | Time      | nit  |";
   "---------------------------------------------------"].
Proof.
  destruct ti_plain as [A B]. destruct vi_plain as [C D].
  repeat (split; [assumption|]). split; reflexivity.
Qed.

Open Scope R_scope.

(** C151.  A verbose newton returns or raises what a silent one does.  Its lines are numbered steps: none is taken from a point
    precise enough, each one lowers the error unless it shows 29 halvings, and the last line says the system is solved exactly
    when it is; the last error shown is that of the point returned. *)
Theorem C151_newton : forall Jac n (f : (nat -> R) -> (nat -> R) * Jac) lsolve tol maxit x,
  let '(lines, r) := newton_log n f lsolve tol maxit 0 x in
  r = newton n f lsolve tol maxit x /\
  exists steps, true_steps tol (supnorm n (fst (f x))) steps /\
    match r with
    | Ok (y, it, ok) =>
        length steps = it /\
        lines = (step_lines steps ++ (if ok then [Solved it (supnorm n (fst (f y)))] else []))%list /\
        nth it (supnorm n (fst (f x)) :: map fst steps) 0 = supnorm n (fst (f y)) /\
        (if ok then supnorm n (fst (f y)) < tol else it = maxit)
    | Err _ => lines = step_lines steps
    end.
Proof. exact newton_verbose. Qed.
Print Assumptions C151_newton.

(** One step towards the square root of two. *)
Example C151_newton_case :
  fst (newton_log 1 root_two root_solve (1 / 3) 5 0 (fun _ => 1)) = [Stepped 1 (1 / 4) 0; Solved 1 (1 / 4)].
Proof. exact root_two_log. Qed.

(** A verbose time iteration stops at the rule and error of a silent one.  Its rows are numbered from 1, there is one per
    iteration reported, every error but the last exceeds the tolerance, the last is the one reported, and the gain is the ratio to
    the preceding error. *)
Theorem C151_time_iteration : forall g f d s n_x ip lsolve nan tol im b maxit c0,
  let '(rows, r) := ti_rows (size d s n_x) (ti_inner g f d s n_x ip lsolve nan im b) tol maxit 0 10 None c0 None in
  r = ti_loop g f d s n_x ip lsolve nan tol im b maxit 0 10 c0 None /\
  true_rows tol rows /\
  (forall c it e, r = Ok (c, it, e) ->
     it = length rows /\ (it <= maxit)%nat /\ e = nth it (10 :: map tr_error rows) 0 /\ ((it < maxit)%nat -> e <= tol)).
Proof. exact ti_verbose. Qed.
Print Assumptions C151_time_iteration.

(** Each row shows one pass: from the controls of a run limited to the passes before (the initial ones at first), the inner
    solve took the number of iterations shown and moved the controls by the error shown; a run limited to this pass
    returns these controls and this error. *)
Theorem C151_rows_shown : forall g f d s n_x ip lsolve nan tol im b maxit c0 k,
  let inner := ti_inner g f d s n_x ip lsolve nan im b in
  let run m := ti_loop g f d s n_x ip lsolve nan tol im b m 0 10 c0 None in
  let rows := fst (ti_rows (size d s n_x) inner tol maxit 0 10 None c0 None) in
  (k < length rows)%nat ->
  let row := nth k rows (TiRow 0 0 None 0) in
  exists c c' ok, (k = O -> c = c0) /\ ((0 < k)%nat -> exists e, run k = Ok (Some c, k, e)) /\
    inner c = Ok (c', tr_nit row, ok) /\ tr_error row = supnorm (size d s n_x) (fun q => c' q - c q) /\
    run (S k) = Ok (Some c', S k, tr_error row).
Proof. exact ti_rows_shown. Qed.
Print Assumptions C151_rows_shown.

(** Halving one control twice. *)
Example C151_rows_case :
  map tr_n (fst (ti_rows 1 (fun c => Ok (fun q => c q / 2, 3%nat, true)) (1 / 3) 9 0 10 None (fun _ => 1) None)) = [1; 2]%nat.
Proof. exact halving_rows. Qed.
