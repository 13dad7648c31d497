(** C148: the table returned by [deterministic_solve], read by names, and a table as initial guess. *)
From Coq Require Import String Reals List Arith ZArith.
From Verif Require Import Base.Prelude Model.SteadyState Model.PerfectForesight Model.PfTable Spec.PfTable Proofs.PfTableProofs.
Import ListNotations.
Open Scope R_scope.

(** Under the name of a state, control, exogenous or auxiliary variable, the row of a date holds the value of this
    variable at this date; auxiliaries are computed from the values of the same row. *)
Theorem C148_table : forall v o, variables_distinct v ->
  let tb := pf_table v o in
  forall t, (t < o_rows o)%nat -> let date := (o_first o + Z.of_nat t)%Z in
    let s := fun k => o_sol o t k in
    let x := fun k => o_sol o t (length (pv_states v) + k)%nat in
    (forall k n, nth_error (pv_states v) k = Some n -> shows tb date n (s k)) /\
    (forall k n, nth_error (pv_controls v) k = Some n -> shows tb date n (x k)) /\
    (forall k n, nth_error (pv_exogenous v) k = Some n -> shows tb date n (o_eps o t k)) /\
    (forall aux k n, pv_aux v = Some aux -> nth_error (pv_auxiliaries v) k = Some n ->
       exists m' s' x', shows tb date n (aux m' s' x' k) /\ m' = o_eps o t /\
         (forall j, (j < length (pv_states v))%nat -> s' j = s j) /\
         (forall j, (j < length (pv_controls v))%nat -> x' j = x j)).
Proof. exact table_shows. Qed.
Print Assumptions C148_table.

(** A table given as guess is read by names, whatever the order of its columns; it is refused exactly when a state or a
    control is missing. *)
Theorem C148_guess : forall v tb,
  match table_guess v tb with
  | Ok (rows, cols, p) =>
      rows = length (tb_index tb) /\ cols = (length (pv_states v) + length (pv_controls v))%nat /\
      (forall n, In n (pv_states v ++ pv_controls v) -> In n (tb_columns tb)) /\
      forall t d k n, NoDup (tb_columns tb) -> NoDup (tb_index tb) -> nth_error (tb_index tb) t = Some d ->
        nth_error (pv_states v ++ pv_controls v) k = Some n -> shows tb d n (p t k)
  | Err e => e = ExcKey /\ exists n, In n (pv_states v ++ pv_controls v) /\ ~ In n (tb_columns tb)
  end.
Proof. exact guess_spec. Qed.
Print Assumptions C148_guess.

(** The table returned, given back, is read as the path of states and controls it was made from. *)
Theorem C148_round_trip : forall v o, variables_distinct v ->
  exists p, table_guess v (pf_table v o) = Ok (o_rows o, (length (pv_states v) + length (pv_controls v))%nat, p) /\
    forall t k, (t < o_rows o)%nat -> (k < length (pv_states v) + length (pv_controls v))%nat -> p t k = o_sol o t k.
Proof. exact guess_of_table. Qed.
Print Assumptions C148_round_trip.

Definition pf_case : pf_variables :=
  PfVariables ["k"%string] ["i"%string; "n"%string] ["y"%string] ["z"%string]
    (Some (fun m s x _ => m 0%nat + s 0%nat * x 1%nat)).
Example C148_nonvacuous : variables_distinct pf_case.
Proof. unfold variables_distinct. cbn. repeat constructor; cbn; intuition discriminate. Qed.
Example C148_case : let o := PfOut (-1) 3 (fun t k => INR (t + 10 * k)) (fun t _ => INR t) (Some false) in
  tb_columns (pf_table pf_case o) = ["k"; "i"; "n"; "y"; "z"]%string /\ tb_index (pf_table pf_case o) = [-1; 0; 1]%Z /\
  tb_cell (pf_table pf_case o) 1 3 = INR 1 + INR 1 * INR 21.
Proof. repeat split; reflexivity. Qed.
