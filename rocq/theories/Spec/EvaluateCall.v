(** What the options of [evaluate_policy] mean. *)
From Coq Require Import String Reals List Arith Bool.
From Verif.Base Require Import Prelude Arrays.
From Verif.Spec Require Import Euler Bellman.
From Verif.Model Require Import Grids Processes DecisionRule TimeIteration TimeIterationCall ImprovedTimeIteration
  ValueIteration EvaluateCall.
Import ListNotations.
Open Scope R_scope.

(** A pass is wanted: the loop starts with the error 10. *)
Definition passes (a : ep_args) : Prop := (0 < ea_maxit a)%nat /\ ea_tol a < 10.

(** The rule that will hold the values: the one given, or a new rule on the grids of the model, with the
    interpolation named and without process. *)
Definition rule_for (md : value_model) (a : ep_args) (r : value_rule) : Prop :=
  ea_dr0 a = Some r \/
  ea_dr0 a = None /\ vr_exo r = vm_exo_grid md /\ vr_endo r = vm_endo_grid md /\ vr_process r = None /\ vr_values r = None /\
    (ea_interp a = "cubic"%string /\ vr_interp r = Cubic \/
     (ea_interp a = "linear"%string \/ ea_interp a = "multilinear"%string) /\ vr_interp r = Linear \/
     ea_interp a = "chebychev"%string /\ vr_interp r = Chebychev).

(** Rows of an array filled page by page. *)
Definition filled (n_ms : nat) (s : list (list R)) (n : nat) (e : nat -> res points) (c : tensor) : Prop :=
  forall i, (i < n_ms)%nat -> exists p, e i = Ok p /\
    match p with
    | P2 rows => length rows = length s /\ (forall r, In r rows -> length r = n) /\
        forall p k, (p < length s)%nat -> c i p k = nth k (nth p rows []) 0
    | P1 r => length r = n /\ forall p k, c i p k = nth k r 0
    end.

(** Successive values of following the policy [x] today and [dr] afterwards: [vs (S t)] is the expected value,
    when the values next period are those of [ip (vs t)]. *)
Definition successive g (val : val_fun) (d : dexo) (s : list (list R)) (n_x n_v : nat)
    (ip : tensor -> nat -> nat -> list R -> list R) (x : tensor) (dr : nat -> nat -> list R -> list R)
    (vs : nat -> tensor) : Prop :=
  forall t i n k, (i < ex_n d)%nat -> (n < length s)%nat -> (k < n_v)%nat ->
    vs (S t) i n k =
    policy_value g val (dp_n (ex_dp d) 0) (dp_weight (ex_dp d) i) (dp_node (ex_dp d) i) (dr i) (ip (vs t) i)
      (ex_node d i) (nth n s []) (at_node n_x x i n) (at_node n_v (vs t) i n) k.

(** The rule [r] interpolates its values [v]: at its nodes it takes them ([n_ms] exogenous nodes, [n_v] values). *)
Definition interpolates (spline : interp -> grid -> (nat -> nat -> R) -> list R -> list R)
    (spline_ms : interp -> grid -> grid -> tensor -> list R -> list R -> list R) (r : value_rule) (n_ms n_v : nat) (v : tensor) : Prop :=
  vr_values r = Some v /\ vr_exo r <> GEmpty /\
  forall i n k, (i < n_ms)%nat -> (n < length (endo_nodes (vr_endo r)))%nat -> (k < n_v)%nat ->
    match vr_exo r with
    | GUnstructured _ => nth k (spline (vr_interp r) (vr_endo r) (v i) (nth n (endo_nodes (vr_endo r)) [])) 0 = v i n k
    | g => forall m, grid_node g i = Ok m ->
             nth k (spline_ms (vr_interp r) g (vr_endo r) v m (nth n (endo_nodes (vr_endo r)) [])) 0 = v i n k
    end.
