(** Time iteration: dolo/algos/time_iteration.py.
    The compiled model functions work row by row (guvectorize), so they are functions of one point:
    [g m s x M] (transition) and [f m s x M S X k] (k-th arbitrage equation); parameters are
    constant during a run and are left out.  A three-dimensional array of controls is a function of
    the exogenous index, the index of the node and the index of the control. *)
From Coq Require Import String Reals List Arith.
From Verif.Base Require Import Prelude Arrays Norms Ext.
From Verif.Model Require Import Discretization Grids Distributions Processes DecisionRule Complementarity Newton NumDiff.
Import ListNotations.
Open Scope R_scope.

Definition tensor := nat -> nat -> nat -> R.
Definition tensor_ext := nat -> nat -> nat -> ext.

(** [x[i, n, :]], a vector of n_x entries. *)
Definition at_node (n_x : nat) (x : tensor) (i n : nat) : list R := map (x i n) (seq 0 n_x).

(** What the solvers read from a discretized process: [n_nodes], [node(i)], and
    [n_inodes(i)], [iweight(i,j)], [inode(i,j)] (record dprocess). *)
Record dexo : Type := { ex_n : nat; ex_node : nat -> list R; ex_dp : dprocess }.

(** processes.py:265-283 (MarkovChain), 185-203 (GDP), 204-231 (DiscretizedIIDProcess:
    n_nodes = 1, node(i) = zeros(d)). *)
Definition mc_exo (c : chain) : dexo :=
  {| ex_n := nrow (fst c); ex_node := fun i => row (fst c) i; ex_dp := mc_process c |}.
Definition gdp_exo (p : gdp) : dexo :=
  {| ex_n := nrow (gdp_nodes p); ex_node := fun i => row (gdp_nodes p) i; ex_dp := gdp_process p |}.
Definition iid_exo (d : iid) (dim : nat) : dexo :=
  {| ex_n := 1; ex_node := fun _ => repeat 0 dim; ex_dp := iid_process d |}.

Section Residuals.
  Variable g : list R -> list R -> list R -> list R -> list R.
  Variable f : list R -> list R -> list R -> list R -> list R -> list R -> nat -> R.
  Variable exo : dexo.
  Variable s : list (list R).             (* nodes of the endogenous grid *)
  Variable n_x : nat.

  Notation dp := (ex_dp exo).
  Notation N := (length s).
  Notation node n := (nth n s []).

  (** [S = g(m, s, xm, M, parms)]: one row per node. *)
  Definition next_states (x : tensor) (i j : nat) : list (list R) :=
    map (fun n => g (ex_node exo i) (node n) (at_node n_x x i n) (dp_node dp i j)) (seq 0 N).

  (** time_iteration.py:24-30, one pass: [res[i, :, :] += prob * f(m, s, xm, M, S, XM)]; rows of
      [XM] beyond the last are not read; a number of rows that differs from N is an error. *)
  Definition accumulate (x : tensor) (i j : nat) (XM : list (list R)) (acc : tensor) : res tensor :=
    if Nat.eqb (length XM) N then
      Ok (fun i' n k =>
            if Nat.eqb i' i then
              acc i' n k + dp_weight dp i j *
                f (ex_node exo i) (node n) (at_node n_x x i n) (dp_node dp i j)
                  (nth n (next_states x i j) []) (nth n XM []) k
            else acc i' n k)
    else Err ExcValue.

  (** time_iteration.py:11-32; [dr i j S] is [dr.eval_ijs(i, j, S)]. *)
  Definition residuals_simple (dr : nat -> nat -> list (list R) -> res (list (list R))) (x : tensor)
    : res tensor :=
    for_range_res (ex_n exo) (fun i acc =>
      for_range_res (dp_n dp i) (fun j acc =>
        bind (dr i j (next_states x i j)) (fun XM => accumulate x i j XM acc)) acc)
      (fun _ _ _ => 0).

  (** The same loop with a rule that evaluates point by point and never raises. *)
  Definition residuals_total (dr : nat -> nat -> list R -> list R) (x : tensor) : tensor :=
    for_range (ex_n exo) (fun i acc =>
      for_range (dp_n dp i) (fun j acc =>
        fun i' n k =>
          if Nat.eqb i' i then
            acc i' n k + dp_weight dp i j *
              f (ex_node exo i) (node n) (at_node n_x x i n) (dp_node dp i j)
                (nth n (next_states x i j) []) (dr i j (nth n (next_states x i j) [])) k
          else acc i' n k) acc)
      (fun _ _ _ => 0).
End Residuals.

(** time_iteration.py:125-138: the initial controls.  [dr0(i, s)] first; if any of these calls
    raises, [dr0(m, s)] for all i.  [isinstance(dr0, AlgoResult)] only unwraps.  Values of another
    shape than (N, n_x) raise ValueError (a single row would be broadcast by numpy; the calls are
    made with a two-dimensional [s] and give one row per point). *)
Definition fill_controls (n_ms N n_x : nat) (call : nat -> res points) : res tensor :=
  for_range_res n_ms (fun i acc =>
    bind (call i) (fun p =>
    match p with
    | P2 rows =>
        if andb (Nat.eqb (length rows) N) (forallb (fun r => Nat.eqb (length r) n_x) rows)
        then Ok (fun i' n k => if Nat.eqb i' i then nth k (nth n rows []) 0 else acc i' n k)
        else Err ExcValue
    | P1 r =>
        if Nat.eqb (length r) n_x
        then Ok (fun i' n k => if Nat.eqb i' i then nth k r 0 else acc i' n k)
        else Err ExcValue
    end)) (fun _ _ _ => 0).

Definition initial_controls (exo : dexo) (s : list (list R)) (x0 : list R)
    (dr0 : option (first_arg -> points -> res points)) : res tensor :=
  match dr0 with
  | None => Ok (fun _ _ k => nth k x0 0)
  | Some d =>
      let fill := fill_controls (ex_n exo) (length s) (length x0) in
      match fill (fun i => d (Idx (IInt i)) (P2 s)) with
      | Ok x => Ok x
      | Err _ => fill (fun i => d (Pts (P1 (ex_node exo i))) (P2 s))
      end
  end.

(** [x.reshape((-1, n_x))] and back: entry q of the flattened array. *)
Definition flatten (N n_x : nat) (x : tensor) (q : nat) : R :=
  x (q / n_x / N)%nat ((q / n_x) mod N)%nat (q mod n_x)%nat.
Definition unflatten (N n_x : nat) (v : nat -> R) : tensor :=
  fun i n k => v ((i * N + n) * n_x + k)%nat.

(** Default tolerances of ncpsolve (ncpsolve.py:11), newton (newton.py:84) and the step of
    SerialDifferentiableFunction (newton.py:167). *)
Definition ncp_tol : R := 1 / 100000000.
Definition newton_tol : R := 1 / 1000000.
Definition serial_eps : R := 1 / 100000000.

(** newton.py:167-190 on flattened arrays with rows of n_x entries: value and Jacobian, the latter
    written as the block-diagonal matrix of its pages. *)
Definition serial_function (n_x : nat) (F : (nat -> R) -> nat -> R) (v : nat -> R)
  : (nat -> R) * (nat -> nat -> R) :=
  let rows := fun (u : nat -> nat -> R) n k => F (fun q => u (q / n_x)%nat (q mod n_x)%nat) (n * n_x + k)%nat in
  let u := fun n k => v (n * n_x + k)%nat in
  (F v, fun p q => if Nat.eqb (p / n_x) (q / n_x)
                   then serial_diff serial_eps rows u (p / n_x) (p mod n_x) (q mod n_x) else 0).

Record ti_result : Type := {
  ti_controls : tensor;      (* values given to the returned rule *)
  ti_iterations : nat;
  ti_compl : bool;
  ti_converged : bool;
  ti_tol : R;
  ti_err : R
}.

Section TimeIteration.
  Variable g : list R -> list R -> list R -> list R -> list R.
  Variable f : list R -> list R -> list R -> list R -> list R -> list R -> nat -> R.
  Variable exo : dexo.
  Variable s : list (list R).
  Variable n_x : nat.
  (** [mdr.set_values(x); mdr.eval_ijs(i, j, .)], one point. *)
  Variable interpolate : tensor -> nat -> nat -> list R -> list R.
  Variable lsolve : (nat -> nat -> R) -> (nat -> R) -> res (nat -> R).
  Variable nan : R.

  Notation N := (length s).
  Definition size : nat := (ex_n exo * N * n_x)%nat.

  (** time_iteration.py:203-206: [fn], the rule being the one of the current controls [c0]. *)
  Definition ti_fn (c0 : nat -> R) (v : nat -> R) : nat -> R :=
    flatten N n_x
      (residuals_total g f exo s n_x (interpolate (unflatten N n_x c0)) (unflatten N n_x v)).

  (** time_iteration.py:214-220. *)
  Definition ti_inner (inner_maxit : nat) (bounds : option ((nat -> ext) * (nat -> ext))) (c0 : nat -> R)
    : res ((nat -> R) * nat * bool) :=
    let dfn := serial_function n_x (ti_fn c0) in
    match bounds with
    | Some (lb, ub) => ncpsolve nan size JSerial dfn lsolve lb ub ncp_tol inner_maxit c0
    | None => newton size dfn lsolve newton_tol inner_maxit c0
    end.

  (** time_iteration.py:192-230; [fuel] = maxit - it; [controls] is unbound before the first pass.
      [abs(...).max()] of an empty array raises ValueError. *)
  Fixpoint ti_loop (tol : R) (inner_maxit : nat) (bounds : option ((nat -> ext) * (nat -> ext)))
      (fuel it : nat) (err : R) (c0 : nat -> R) (controls : option (nat -> R))
    : res (option (nat -> R) * nat * R) :=
    match fuel with
    | O => Ok (controls, it, err)
    | S fuel' =>
        if Rlt_dec tol err then
          if Nat.eqb size 0 then Err ExcValue else
          bind (ti_inner inner_maxit bounds c0) (fun a =>
          let c := fst (fst a) in
          ti_loop tol inner_maxit bounds fuel' (S it) (supnorm size (fun q => c q - c0 q)) c (Some c))
        else Ok (controls, it, err)
    end.

  (** time_iteration.py:40-253 (details=True), after the initial controls and the bounds have been
      computed.  Line 232 raises UnboundLocalError (a NameError) when the loop body never ran. *)
  Definition time_iteration (tol : R) (maxit inner_maxit : nat)
      (bounds : option (tensor_ext * tensor_ext)) (x0 : tensor) : res ti_result :=
    let flat (b : tensor_ext) := fun q => b (q / n_x / N)%nat ((q / n_x) mod N)%nat (q mod n_x)%nat in
    let fb := match bounds with Some (l, u) => Some (flat l, flat u) | None => None end in
    bind (ti_loop tol inner_maxit fb maxit 0 10 (flatten N n_x x0) None) (fun a =>
    let '(controls, it, err) := a in
    match controls with
    | None => Err ExcName
    | Some c => Ok {| ti_controls := unflatten N n_x c; ti_iterations := it;
                      ti_compl := match bounds with Some _ => true | None => false end;
                      ti_converged := if Rlt_dec err tol then true else false;
                      ti_tol := tol; ti_err := err |}
    end).
End TimeIteration.
