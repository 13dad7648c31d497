(** What a simulation should be, and how its result is read. *)
From Coq Require Import String Reals List Arith ZArith.
From Verif.Base Require Import Prelude Arrays.
From Verif.Model Require Import Grids Processes Simulation.
Import ListNotations.
Open Scope R_scope.

(** The value of variable [v] in a row of a table whose columns are [names]. *)
Fixpoint value_of (names : list string) (r : list R) (v : string) : option R :=
  match names, r with
  | w :: names', y :: r' => if String.eqb v w then Some y else value_of names' r' v
  | _, _ => None
  end.

(** The result contains the indices (discrete case), the exogenous values (when there are auxiliary
    equations), the states, the controls and the auxiliary variables. *)
Definition reported (md : sim_model) (out : sim_out) (ii : option (nat -> nat -> nat)) (m s x : path) : Prop :=
  so_names out = (match ii with Some _ => ["_i_m"%string] | None => [] end) ++
                 (match sm_aux md with Some _ => sm_exogenous md | None => [] end) ++
                 sm_states md ++ sm_controls md ++
                 (match sm_aux md with Some _ => sm_auxiliaries md | None => [] end) /\
  forall t n, (t < so_T out)%nat -> (n < so_N out)%nat ->
    so_row out t n = (match ii with Some i => [INR (i t n)] | None => [] end) ++
                     (match sm_aux md with Some _ => m t n | None => [] end) ++
                     s t n ++ x t n ++
                     (match sm_aux md with Some aux => aux (m t n) (s t n) (x t n) | None => [] end).

Definition starts_at (s0 : list R) (N : nat) (s : path) : Prop := forall n, (n < N)%nat -> s 0%nat n = s0.

(** Controls are given by the rule at the current state and exogenous value (or index of it). *)
Definition rule_followed (dr : rule) (T N : nat) (ii : option (nat -> nat -> nat)) (m s x : path) : Prop :=
  forall t n, (t < T)%nat -> (n < N)%nat ->
    match ii with
    | Some i => ru_is dr (Some (i t n)) (s t n)
    | None => ru_ms dr (m t n) (s t n)
    end = Ok (x t n).

(** The model's law of motion: next states depend on current exogenous values, states and controls, and
    on next exogenous values. *)
Definition law_of_motion (g : list R -> list R -> list R -> list R -> list R) (T N : nat) (m s x : path) : Prop :=
  forall t n, (S t < T)%nat -> (n < N)%nat -> s (S t) n = g (m t n) (s t n) (x t n) (m (S t) n).

(** The same with exogenous values lagged by one period. *)
Definition lagged_law (g : list R -> list R -> list R -> list R -> list R) (T N : nat)
    (before : nat -> list R) (m s x : path) : Prop :=
  forall t n, (S t < T)%nat -> (n < N)%nat ->
    s (S t) n = g (match t with O => before n | S t' => m t' n end) (s t n) (x t n) (m t n).

(** Where the exogenous values come from. *)
Definition exogenous_source {rng} (rand : rng -> nat -> R) (skip : rng -> nat -> rng) (md : sim_model)
    (dr : rule) (dflt : sim_process rng) (a : sim_args rng) (r : rng)
    (ii : option (nat -> nat -> nat)) (m : path) (before : nat -> list R) : Prop :=
  match sa_driving a with
  | DPath T p => (sa_T a <= T)%nat /\ ii = None /\ (forall t n, m t n = p t n) /\ (forall n, before n = p 0%nat n)
  | DIndices T i => (sa_T a <= T)%nat /\ ii = Some i /\
      exists nodes, ru_nodes dr = Ok nodes /\ (forall t n, m t n = row nodes (i t n)) /\
                    (forall n, before n = row nodes (i 0%nat n))
  | DOther => False
  | DNone =>
      match orelse (sa_process a) dflt with
      | SChain c =>
          let i0 := orelse (sa_i0 a) 0%nat in
          fst (chain_simulate rng rand skip c (sa_N a) (sa_T a) i0 (sa_stochastic a) r) = Ok m /\
          (exists i, ii = Some i /\ forall t n, (t < sa_T a)%nat -> (n < sa_N a)%nat ->
                     (i t n < nrow (fst c))%nat /\ row (fst c) (i t n) = m t n) /\
          (forall n, before n = row (fst c) i0)
      | SContinuous simul =>
          ii = None /\ fst (simul (sa_N a) (sa_T a) (sa_m0 a) (sa_stochastic a) r) = Ok m /\
          (forall n, before n = orelse (sa_m0 a) (sm_m md))
      end
  end.

(** [i] is the first row of [values] equal to [v]. *)
Definition first_equal_row (values : mat) (v : list R) (i : nat) : Prop :=
  (i < nrow values)%nat /\ row values i = v /\ forall j, (j < i)%nat -> row values j <> v.

(** No two rows are equal. *)
Definition distinct_rows (values : mat) : Prop :=
  forall i j, (i < nrow values)%nat -> (j < nrow values)%nat -> row values i = row values j -> i = j.

(** The [k]-th of the [n] evenly spaced values between the bounds. *)
Definition evenly_spaced (lo hi : R) (n : nat) (v : nat -> R) : Prop :=
  v 0%nat = lo /\ ((2 <= n)%nat -> v (n - 1)%nat = hi) /\
  forall k, (S k < n)%nat -> v (S k) - v k = (hi - lo) / (INR n - 1).

(** [s] is [s0] with entry [i] set to [y]. *)
Definition only_changed (s0 s : list R) (i : nat) (y : R) : Prop :=
  length s = length s0 /\ nth i s 0 = y /\ forall j, j <> i -> nth j s 0 = nth j s0 0.

(** [s] is [s0] with entries [i] and [j] set to [y] and [z]. *)
Definition two_changed (s0 s : list R) (i j : nat) (y z : R) : Prop :=
  length s = length s0 /\ nth i s 0 = y /\ nth j s 0 = z /\
  forall k, k <> i -> k <> j -> nth k s 0 = nth k s0 0.

(** Where the bounds of a table come from. *)
Definition bounds_from (dr : tab_rule) (domain : res (list R * list R)) (index : nat) (b : option (R * R))
    (lo hi : R) : Prop :=
  match b with
  | Some p => p = (lo, hi)
  | None =>
      (exists l h, tr_min dr = Some l /\ tr_max dr = Some h /\
                   nth_error l index = Some lo /\ nth_error h index = Some hi) \/
      (exists l h, domain = Ok (l, h) /\ nth_error l index = Some lo /\ nth_error h index = Some hi)
  end.

(** The exogenous value and the control values of a table over states [svec]: from the index given, else
    the vector given; by default the index in the middle of an unstructured grid, else calibrated
    exogenous values. *)
Definition evaluated_at (md : sim_model) (dr : tab_rule) (dp : tab_process) (i0 : option nat)
    (m0 : option (list R)) (svec : list (list R)) (m : list R) (xvec : list (list R)) : Prop :=
  let by_index i := tp_node dp i = Ok m /\ tr_is dr i svec = Ok xvec in
  let by_value v := m = v /\ tr_ms dr v svec = Ok xvec in
  match i0, m0 with
  | Some i, _ => by_index i
  | None, Some v => by_value v
  | None, None => if tp_unstructured dp then by_index (middle (tp_n dp)) else by_value (sm_m md)
  end.

(** The path of the exogenous variables in an impulse response: [impulse] in variable [i] at date 1, zero
    elsewhere. *)
Definition impulse_path (md : sim_model) (i : nat) (impulse : R) : path :=
  fun t _ => map (fun j => if Nat.eqb t 1 then (if Nat.eqb j i then impulse else 0) else 0)
                 (seq 0 (length (sm_exogenous md))).
