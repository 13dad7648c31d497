(** Simulations and tables of decision rules: dolo/algos/simulations.py.  A value of the vector of
    exogenous variables, states or controls is a list of floats; a simulated path is a function of the
    date and of the trajectory number. *)
From Coq Require Import String Reals List Arith ZArith Lia Bool.
From Verif.Base Require Import Prelude Arrays.
From Verif.Model Require Import Discretization Grids Processes DecisionRule.
Import ListNotations.
Open Scope R_scope.

Definition path := nat -> nat -> list R.

(* ------------------------------------------------------------------ *)
(** ** find_index *)

Definition row_eq_dec : forall a b : list R, {a = b} + {a <> b} := list_eq_dec Req_EM_T.

(** 51: [np.where((values == v[None, :]).all(axis=1))[0][0]], searching rows [i], [i+1], ....
    (Broadcasting of a vector of another width than the rows is not modelled: such rows differ.) *)
Fixpoint where_first (values : mat) (v : list R) (fuel i : nat) : option nat :=
  match fuel with
  | O => None
  | S fuel' => if row_eq_dec (row values i) v then Some i else where_first values v fuel' (S i)
  end.

(** 43-53: the two leading axes are called N and T here, whatever they mean to the caller. *)
Definition find_index (N T : nat) (sim : path) (values : mat) : res (nat -> nat -> nat) :=
  for_range_res N (fun n indices =>
    for_range_res T (fun t indices =>
      match where_first values (sim n t) (nrow values) 0 with
      | Some ind => Ok (upd2 indices n t ind)
      | None => Err ExcIndex
      end) indices) (fun _ _ => 0%nat).

(* ------------------------------------------------------------------ *)
(** ** simulate *)

(** What simulate reads of a model.  [sm_g m s x M] is functions["transition"] at the calibrated
    parameters, on one row; [sm_aux] is functions["auxiliary"], absent from some models. *)
Record sim_model : Type := SimModel {
  sm_exogenous : list string;
  sm_states : list string;
  sm_controls : list string;
  sm_auxiliaries : list string;
  sm_s : list R;                      (* calibration["states"] *)
  sm_m : list R;                      (* calibration["exogenous"] *)
  sm_g : list R -> list R -> list R -> list R -> list R;
  sm_aux : option (list R -> list R -> list R -> list R) }.

(** What simulate reads of a decision rule: eval_is (the index may be None), eval_ms, both on one row
    (the third-party interpolation routines treat the rows one by one), and the nodes of exo_grid. *)
Record rule : Type := Rule {
  ru_is : option nat -> list R -> res (list R);
  ru_ms : list R -> list R -> res (list R);
  ru_nodes : res mat }.

(** [out[0, :]]. *)
Definition row0 (out : list (list R)) : res (list R) :=
  match out with r :: _ => Ok r | [] => Err ExcIndex end.

(** decision_rule.py: a DecisionRule on the grids [exo], [endo].  eval_is(None, s): a list cannot be
    indexed by None (line 296); [nodes[None, :]] has one axis too many (line 207); EmptyGrid ignores
    the index (line 451). *)
Definition grid_rule
    (eval_linear : grid -> nd -> list (list R) -> res (list (list R)))
    (eval_cubic : grid -> nd -> list (list R) -> res (list (list R)))
    (exo endo : grid) (k : interp) (c : coefs) : rule :=
  {| ru_is := fun i s =>
       match i with
       | Some i => bind (eval_is eval_linear eval_cubic exo endo k c (IInt i) [s]) row0
       | None => match exo with
                 | GEmpty => bind (eval_s eval_linear eval_cubic exo endo k c [s]) row0
                 | GUnstructured _ => Err ExcType
                 | _ => Err ExcAssert
                 end
       end;
     ru_ms := fun m s => bind (eval_ms eval_linear eval_cubic exo endo k c [m] [s]) row0;
     ru_nodes := match exo with
                 | GUnstructured p => Ok p
                 | GUniform u => Ok (u_nodes u)
                 | GNonUniform u => Ok (nu_nodes u)
                 | _ => Err ExcAttribute
                 end |}.

(** The optional driving_process: absent; a 3-d array of [T] rows; a 2-d integer array; an array of
    another dimension.  (The second axis is assumed to have length N, the indices not to be negative.) *)
Inductive driving : Type :=
| DNone
| DPath (T : nat) (m : path)
| DIndices (T : nat) (i : nat -> nat -> nat)
| DOther.

Section Simulate.
  (** State of numpy's random generator; [seeded k] is the one left by numpy.random.seed(k). *)
  Variable rng : Type.
  Variable seeded : Z -> rng.

  (** An exogenous process: a Markov chain (DiscreteProcess), or a continuous one; its simulate method
      draws from the generator. *)
  Inductive sim_process : Type :=
  | SChain (c : chain)
  | SContinuous (simul : nat -> nat -> option (list R) -> bool -> rng -> res path * rng).

  (** Stream of uniform numbers drawn from a state, state after [k] of them. *)
  Variable rand : rng -> nat -> R.
  Variable skip : rng -> nat -> rng.

  Record sim_args : Type := SimArgs {
    sa_process : option sim_process;
    sa_N : nat;
    sa_T : nat;
    sa_s0 : option (list R);
    sa_i0 : option nat;
    sa_m0 : option (list R);
    sa_driving : driving;
    sa_seed : Z;
    sa_stochastic : bool }.

  (** The DataArray returned: names of the variables, and for each date and trajectory their values. *)
  Record sim_out : Type := SimOut {
    so_T : nat;
    so_N : nat;
    so_names : list string;
    so_row : nat -> nat -> list R }.

  Definition orelse {A} (o : option A) (d : A) : A := match o with Some a => a | None => d end.

  (** What lines 126-177 prepare: rows of the path, simulated values, indices for a discrete
      simulation, exogenous values "before" date 0. *)
  Record prepared : Type := Prepared {
    pr_T : nat;
    pr_m : path;
    pr_i : option (nat -> nat -> nat);
    pr_before : nat -> list R }.

  Variable md : sim_model.
  Variable dr : rule.
  (** 150-154: dr.dprocess if it can simulate, else model.exogenous. *)
  Variable default_process : sim_process.

  (** MarkovChain.simulate draws N*(T-1) numbers. *)
  Definition chain_simulate (c : chain) (N T i0 : nat) (stochastic : bool) (r : rng) : res path * rng :=
    (mc_simulate c N T i0 stochastic (rand r), if stochastic then skip r (N * (T - 1))%nat else r).

  (** 126-177.  [m0] after line 145 is the first row of the path. *)
  Definition prepare (a : sim_args) (s0 : list R) (r : rng) : res prepared * rng :=
    match sa_driving a with
    | DPath T m =>
        (bind (ru_ms dr (orelse (sa_m0 a) (sm_m md)) s0) (fun _ =>
         if Nat.eqb T 0 then Err ExcIndex else Ok (Prepared T m None (m 0%nat))), r)
    | DIndices T i =>
        (bind (ru_nodes dr) (fun nodes =>
         if forallb (fun t => forallb (fun n => Nat.ltb (i t n) (nrow nodes)) (seq 0 (sa_N a))) (seq 0 T)
         then bind (ru_is dr (sa_i0 a) s0) (fun _ =>
              if Nat.eqb T 0 then Err ExcIndex
              else let m := fun t n => row nodes (i t n) in Ok (Prepared T m (Some i) (m 0%nat)))
         else Err ExcIndex), r)
    | DOther => (Err (ExcGeneric "Incorrect specification of driving values."), r)
    | DNone =>
        match orelse (sa_process a) default_process with
        | SChain c =>
            let i0 := orelse (sa_i0 a) 0%nat in
            let (mr, r') := chain_simulate c (sa_N a) (sa_T a) i0 (sa_stochastic a) r in
            (bind mr (fun m =>
             bind (find_index (sa_T a) (sa_N a) m (fst c)) (fun i =>
             if Nat.ltb i0 (nrow (fst c))
             then bind (ru_is dr (Some i0) s0) (fun _ =>
                  Ok (Prepared (sa_T a) m (Some i) (fun _ => row (fst c) i0)))
             else Err ExcIndex)), r')
        | SContinuous simul =>
            let (mr, r') := simul (sa_N a) (sa_T a) (sa_m0 a) (sa_stochastic a) r in
            (bind mr (fun m =>
             let m0 := orelse (sa_m0 a) (sm_m md) in
             bind (ru_ms dr m0 s0) (fun _ => Ok (Prepared (sa_T a) m None (fun _ => m0)))), r')
        end
    end.

  (** Evaluation on the [N] rows of an array. *)
  Definition rows_res (N : nat) (f : nat -> res (list R)) : res (nat -> list R) :=
    for_range_res N (fun n x => bind (f n) (fun v => Ok (upd x n v))) (fun _ => []).

  (** 184-202: the loop over dates; the state is (s_simul, x_simul, mp).  [np.row_stack] of no row
      raises ValueError. *)
  Definition sim_body (N T : nat) (p : prepared) (i : nat) (st : path * path * (nat -> list R))
    : res (path * path * (nat -> list R)) :=
    let '(s, x, mp) := st in
    if Nat.ltb i (pr_T p) then
      bind (match pr_i p with
            | Some ii => if Nat.eqb N 0 then Err ExcValue
                         else rows_res N (fun n => ru_is dr (Some (ii i n)) (s i n))
            | None => rows_res N (fun n => ru_ms dr (pr_m p i n) (s i n))
            end) (fun xi =>
      let x := upd x i xi in
      let ss := fun n => sm_g md (mp n) (s i n) (xi n) (pr_m p i n) in
      let s := if Nat.ltb i (T - 1) then upd s (i + 1)%nat ss else s in
      Ok (s, x, pr_m p i))
    else Err ExcIndex.

  (** 204-234: columns of the result.  Without auxiliary equations the exogenous variables are not
      reported. *)
  Definition sim_table (N T : nat) (p : prepared) (s x : path) : res sim_out :=
    bind (match sm_aux md with
          | None => Ok (sm_states md ++ sm_controls md, fun t n => s t n ++ x t n)
          | Some aux =>
              if Nat.eqb (pr_T p) T
              then Ok (sm_exogenous md ++ sm_states md ++ sm_controls md ++ sm_auxiliaries md,
                       fun t n => pr_m p t n ++ s t n ++ x t n ++ aux (pr_m p t n) (s t n) (x t n))
              else Err ExcValue
          end) (fun tab =>
    match pr_i p with
    | Some ii => if Nat.eqb (pr_T p) T
                 then Ok (SimOut T N ("_i_m"%string :: fst tab) (fun t n => INR (ii t n) :: snd tab t n))
                 else Err ExcValue
    | None => Ok (SimOut T N (fst tab) (snd tab))
    end).

  (** 61-236.  [numpy.random.seed] is called at line 182, once the exogenous path is known; the calls
      before it may raise. *)
  Definition simulate (a : sim_args) (r : rng) : res sim_out * rng :=
    let s0 := orelse (sa_s0 a) (sm_s md) in
    if Nat.eqb (sa_T a) 0 then (Err ExcIndex, r)            (* s_simul[0, :, :] *)
    else
      let (pr, r') := prepare a s0 r in
      match pr with
      | Err e => (Err e, r')
      | Ok p =>
          (bind (for_range_res (sa_T a) (sim_body (sa_N a) (sa_T a) p)
                   ((fun t n => match t with O => s0 | S _ => [] end), (fun _ _ => []), pr_before p))
             (fun st => let '(s, x, _) := st in sim_table (sa_N a) (sa_T a) p s x),
           seeded (sa_seed a))
      end.
End Simulate.

Arguments SChain {rng} c.
Arguments SContinuous {rng} simul.
Arguments sa_process {rng}.
Arguments sa_N {rng}.
Arguments sa_T {rng}.
Arguments sa_s0 {rng}.
Arguments sa_i0 {rng}.
Arguments sa_m0 {rng}.
Arguments sa_driving {rng}.
Arguments sa_seed {rng}.
Arguments sa_stochastic {rng}.
Arguments SimArgs {rng}.
Arguments simulate {rng} seeded rand skip md dr default_process a r.

(* ------------------------------------------------------------------ *)
(** ** response *)

(** numpy.zeros(n) with one entry set. *)
Definition impulse_vector (n i : nat) (impulse : R) : vec := Vec n (fun j => if Nat.eqb j i then impulse else 0).

(** 14-40.  Only IIDProcess.response returns an xarray; AR1's raises and VAR1's is a numpy array,
    without [expand_dims].  [i_exo] is the position of the variable ([None]: ValueError).  The default
    impulse (lines 18-24) is in Response.v: here [impulse] is given. *)
Inductive exo_kind := KIid | KAr1 (rho sigma mu : R) | KVar1 (v : var1).
Definition response {rng} (seeded : Z -> rng) rand skip (md : sim_model) (dr : rule) dflt (kind : exo_kind)
    (i_exo : option nat) (T : nat) (impulse : R) (seed : Z) (r : rng) : res sim_out * rng :=
  match i_exo with
  | None => (Err ExcValue, r)
  | Some i =>
      let d := length (sm_exogenous md) in
      let e1 := impulse_vector d i impulse in
      match T with
      | O => (Err ExcValue, r)                                (* numpy.zeros with a negative shape *)
      | S T1 =>
          match kind with
          | KAr1 rho sigma mu =>
              (bind (ar1_response rho sigma mu T1 e1) (fun _ => Err ExcAttribute), r)
          | KVar1 v => (bind (var1_response v T1 e1) (fun _ => Err ExcAttribute), r)
          | KIid =>
              match iid_response d T1 e1 with
              | Err e => (Err e, r)
              | Ok irf =>
                  simulate seeded rand skip md dr dflt
                    (SimArgs None 1 T None None None
                       (DPath T (fun t _ => map (irf t) (seq 0 d))) seed false) r
              end
          end
      end
  end.

(* ------------------------------------------------------------------ *)
(** ** tabulate *)

(** Position of a name in a list of symbols ([list.index]). *)
Fixpoint name_index (v : string) (l : list string) : res nat :=
  match l with
  | [] => Err ExcValue
  | w :: l' => if String.eqb v w then Ok 0%nat else bind (name_index v l') (fun k => Ok (S k))
  end.

(** [v[i] = y] on a 1-d array of floats, or of integers (the value is truncated). *)
Definition set_entry (ints : bool) (v : list R) (i : nat) (y : R) : list R :=
  map (fun j => if Nat.eqb j i then (if ints then trunc y else y) else nth j v 0) (seq 0 (length v)).

(** What tabulate reads of a rule: eval_is(i, rows), eval_ms(m, rows) with a 1-d [m], bounds of the
    endogenous grid when it has some; of the discretized process: whether its grid is unstructured,
    number of nodes, nodes. *)
Record tab_rule : Type := TabRule {
  tr_is : nat -> list (list R) -> res (list (list R));
  tr_ms : list R -> list (list R) -> res (list (list R));
  tr_min : option (list R);
  tr_max : option (list R) }.
Record tab_process : Type := TabProcess {
  tp_unstructured : bool;
  tp_n : nat;
  tp_node : nat -> res (list R) }.

(** A DecisionRule: a 1-d [m] fails the assertion of eval_ms on Cartesian grids (lines 184, 243); the
    integer is otherwise handled as in [eval_is]. *)
Definition grid_tab_rule
    (eval_linear : grid -> nd -> list (list R) -> res (list (list R)))
    (eval_cubic : grid -> nd -> list (list R) -> res (list (list R)))
    (exo endo : grid) (k : interp) (c : coefs) (lo hi : option (list R)) : tab_rule :=
  {| tr_is := fun i s => eval_is eval_linear eval_cubic exo endo k c (IInt i) s;
     tr_ms := fun m s => match exo with
                         | GEmpty => eval_s eval_linear eval_cubic exo endo k c s
                         | GUniform _ | GNonUniform _ => Err ExcAssert
                         | _ => Err not_registered
                         end;
     tr_min := lo; tr_max := hi |}.

Record tab_args : Type := TabArgs {
  ta_state : string;
  ta_bounds : option (R * R);
  ta_steps : nat;
  ta_s0 : option (bool * list R);    (* true: an array of integers *)
  ta_i0 : option nat;
  ta_m0 : option (list R) }.
Record tab_out : Type := TabOut {
  to_names : list string;
  to_rows : list (list R) }.

(** 253-261. *)
Definition tab_bounds (dr : tab_rule) (domain : res (list R * list R)) (index : nat) (b : option (R * R))
  : res (R * R) :=
  match b with
  | Some p => Ok p
  | None =>
      match tr_min dr, tr_max dr with
      | Some lo, Some hi =>
          match nth_error lo index, nth_error hi index with
          | Some a, Some b => Ok (a, b)
          | _, _ => bind domain (fun d => match nth_error (fst d) index, nth_error (snd d) index with
                                          | Some a, Some b => Ok (a, b)
                                          | _, _ => Err ExcIndex
                                          end)
          end
      | _, _ => bind domain (fun d => match nth_error (fst d) index, nth_error (snd d) index with
                                      | Some a, Some b => Ok (a, b)
                                      | _, _ => Err ExcIndex
                                      end)
      end
  end.

(** 277-285: default index: [q - 1 + r] with [q, r = divmod(n_ms, 2)]. *)
Definition middle (n : nat) : nat := (n / 2 + n mod 2 - 1)%nat.

(** 264-294: where the rule is evaluated, and its values. *)
Definition tab_eval (md : sim_model) (dr : tab_rule) (dp : tab_process) (a : tab_args) (svec : list (list R))
  : res (list R * list (list R)) :=
  let '(i0, m0) :=
    match ta_i0 a, ta_m0 a with
    | None, None => if tp_unstructured dp then (Some (middle (tp_n dp)), None) else (None, Some (sm_m md))
    | i, m => (i, m)
    end in
  match i0, m0 with
  | Some i, _ => bind (tp_node dp i) (fun m => bind (tr_is dr i svec) (fun xvec => Ok (m, xvec)))
  | None, Some m => bind (tr_ms dr m svec) (fun xvec => Ok (m, xvec))
  | None, None => Err ExcName
  end.

(** 239-311.  Rows of the table: exogenous, states, controls, auxiliaries. *)
Definition tabulate (md : sim_model) (dr : tab_rule) (dp : tab_process) (domain : res (list R * list R))
    (a : tab_args) : res tab_out :=
  bind (name_index (ta_state a) (sm_states md)) (fun index =>
  bind (tab_bounds dr domain index (ta_bounds a)) (fun b =>
  let values := map (linspace (fst b) (snd b) (ta_steps a)) (seq 0 (ta_steps a)) in
  let '(ints, s0) := orelse (ta_s0 a) (false, sm_s md) in
  if Nat.eqb (ta_steps a) 0 then Err ExcValue
  else if negb (Nat.ltb index (length s0)) then Err ExcIndex
  else
    let svec := map (set_entry ints s0 index) values in
    bind (tab_eval md dr dp a svec) (fun mx =>
    let (m, xvec) := mx in
    if negb (Nat.eqb (length xvec) (ta_steps a)) then Err ExcValue
    else
      Ok (TabOut (sm_exogenous md ++ sm_states md ++ sm_controls md ++
                    (match sm_aux md with Some _ => sm_auxiliaries md | None => [] end))
                 (map (fun sx => m ++ fst sx ++ snd sx ++
                                 (match sm_aux md with Some aux => aux m (fst sx) (snd sx) | None => [] end))
                      (combine svec xvec)))))).

(* ------------------------------------------------------------------ *)
(** ** tabulate_2d *)

(** A DecisionRule refuses a 1-d [s] (assertions at lines 184, 243, 292, 329, 364, 397, 431). *)
Definition grid_is1 (i : nat) (s : list R) : res (list R) := Err ExcAssert.
(** ConstantDecisionRule accepts it (lines 474-484). *)
Definition constant_is1 (x0 : list R) (i : nat) (s : list R) : res (list R) := Ok x0.

(** 314-350: [is1 i s] is dr.eval_is(i, s) on a 1-d [s]; [domain] the pairs of model.get_domain().
    The array [s] is a copy of [s0] (floats or integers), updated in place: the loop threads it. *)
Definition tabulate_2d (md : sim_model) (is1 : nat -> list R -> res (list R))
    (domain : string -> res (R * R)) (states : option (list string)) (i0 : nat)
    (s0 : option (bool * list R)) (nx ny : nat) : res (nat -> nat -> list R) :=
  match orelse states (sm_states md) with
  | [v; w] =>
      bind (domain v) (fun dv => bind (domain w) (fun dw =>
      bind (name_index v (sm_states md)) (fun ix => bind (name_index w (sm_states md)) (fun iy =>
      let '(ints, s0) := orelse s0 (false, sm_s md) in
      bind (for_range_res nx (fun a st =>
              let '(s, out) := st in
              if negb (Nat.ltb ix (length s)) then Err ExcIndex else
              let s := set_entry ints s ix (linspace (fst dv) (snd dv) nx a) in
              for_range_res ny (fun b st =>
                let '(s, out) := st in
                if negb (Nat.ltb iy (length s)) then Err ExcIndex else
                let s := set_entry ints s iy (linspace (fst dw) (snd dw) ny b) in
                bind (is1 i0 s) (fun x => Ok (s, upd2 out a b (s ++ x)))) (s, out))
             (s0, fun _ _ => [])) (fun st => Ok (snd st))))))
  | _ => Err ExcAssert
  end.
