(** The table returned by [deterministic_solve] and the reading of a table given as initial guess:
    dolo/algos/perfect_foresight.py, lines 199-205 and 284-303, on top of PerfectForesight.v. *)
From Coq Require Import String Reals List Arith ZArith Bool.
From Verif.Base Require Import Prelude Ext Arrays.
From Verif.Model Require Import SteadyState PerfectForesight.
Import ListNotations.
Open Scope R_scope.

(** A pandas DataFrame: labels of the rows, names of the columns, cells by position. *)
Record table : Type := Table {
  tb_index : list Z;
  tb_columns : list string;
  tb_cell : nat -> nat -> R }.

(** Position of the column [name]: the first one (pandas returns all columns of that name; names of variables are
    distinct). *)
Fixpoint column_of (name : string) (columns : list string) : option nat :=
  match columns with
  | [] => None
  | c :: r => if String.eqb c name then Some 0%nat else match column_of name r with Some k => Some (S k) | None => None end
  end.

(** [np.column_stack([a, b])], [a] with [n] columns. *)
Definition column_stack (n : nat) (a b : nat -> nat -> R) : nat -> nat -> R :=
  fun t k => if Nat.ltb k n then a t k else b t (k - n)%nat.

(** The variables of a model; [pv_aux] is functions["auxiliary"] on one row, if there is one. *)
Record pf_variables : Type := PfVariables {
  pv_states : list string;
  pv_controls : list string;
  pv_auxiliaries : list string;
  pv_exogenous : list string;
  pv_aux : option (vecR -> vecR -> vecR -> nat -> R) }.

(** 284-303: [sol] has n_s + n_x columns. *)
Definition pf_table (v : pf_variables) (o : pf_out) : table :=
  let n_s := length (pv_states v) in
  let n_x := length (pv_controls v) in
  let '(colnames, n, sol) :=
    match pv_aux v with
    | Some aux =>
        let y := fun t => aux (o_eps o t) (slice 0 n_s (o_sol o t)) (slice n_s n_x (o_sol o t)) in
        (pv_states v ++ pv_controls v ++ pv_auxiliaries v, (n_s + n_x + length (pv_auxiliaries v))%nat,
         column_stack (n_s + n_x) (o_sol o) y)
    | None => (pv_states v ++ pv_controls v, (n_s + n_x)%nat, o_sol o)
    end in
  Table (map (fun t => (o_first o + Z.of_nat t)%Z) (seq 0 (o_rows o))) (colnames ++ pv_exogenous v)
    (column_stack n sol (o_eps o)).

(** 200-202: [initial_guess[names]], a KeyError if a name is not a column. *)
Fixpoint select (tb : table) (names : list string) : res (list nat) :=
  match names with
  | [] => Ok []
  | n :: r =>
      match column_of n (tb_columns tb) with
      | None => Err ExcKey
      | Some k => bind (select tb r) (fun l => Ok (k :: l))
      end
  end.
Definition table_guess (v : pf_variables) (tb : table) : res (nat * nat * (nat -> nat -> R)) :=
  let names := pv_states v ++ pv_controls v in
  bind (select tb names) (fun l =>
  Ok (length (tb_index tb), length names, fun t k => tb_cell tb t (nth k l 0%nat))).
