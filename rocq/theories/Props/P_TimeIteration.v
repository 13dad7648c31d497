(** Property theorems C28, C29, C86, C87: time iteration. *)
From Coq Require Import String Reals List Arith Lia Lra.
From Verif.Base Require Import Prelude Arrays Ext Sums.
From Verif.Spec Require Import Product Interpolation Euler Complementarity.
From Verif.Model Require Import Grids Discretization Distributions Processes DecisionRule Complementarity NumDiff TimeIteration.
From Verif.Spec Require Import TimeIteration.
From Verif.Proofs Require Import TimeIterationProofs.
Import ListNotations.
Open Scope R_scope.

(** C28, discretised Markov chain: the residual at node i and state s is the expectation over the
    transition row P_i, with the rule of the state reached. *)
Theorem C28_markov_chain :
  forall el ec g f c s n_x endo k co v x nodes,
    (forall j pts, (j < ncol (snd c))%nat -> eval_is el ec (GUnstructured nodes) endo k co (IInt j) pts = Ok (map (v j) pts)) ->
    exists r, residuals_simple g f (mc_exo c) s n_x
                (eval_ijs el ec (dp_node (ex_dp (mc_exo c))) (GUnstructured nodes) endo k co) x = Ok r /\
      forall i n q, (i < nrow (fst c))%nat -> (n < length s)%nat ->
        r i n q = euler g f (ncol (snd c)) (mget (snd c) i) (row (fst c)) v
                        (row (fst c) i) (nth n s []) (at_node n_x x i n) q.
Proof. exact residuals_markov. Qed.
Print Assumptions C28_markov_chain.

(** C28, iid shocks. *)
Theorem C28_iid :
  forall el ec g f d dim s n_x endo k co v x,
    (forall pts, eval_s el ec GEmpty endo k co pts = Ok (map v pts)) ->
    exists r, residuals_simple g f (iid_exo d dim) s n_x
                (eval_ijs el ec (dp_node (ex_dp (iid_exo d dim))) GEmpty endo k co) x = Ok r /\
      forall n q, (n < length s)%nat ->
        r 0%nat n q = euler g f (iid_n d) (iid_weight d) (iid_point d) (fun _ => v)
                        (repeat 0 dim) (nth n s []) (at_node n_x x 0 n) q.
Proof. exact residuals_iid. Qed.
Print Assumptions C28_iid.

(** C28, generalised discretised process (nodes and quadrature nodes). *)
Theorem C28_gdp :
  forall el ec g f p s n_x ex endo k co v x,
    (exists u, ex = GUniform u) \/ (exists u, ex = GNonUniform u) ->
    (forall m pts, eval_ms el ec ex endo k co (repeat m (length pts)) pts = Ok (map (v m) pts)) ->
    exists r, residuals_simple g f (gdp_exo p) s n_x
                (eval_ijs el ec (dp_node (ex_dp (gdp_exo p))) ex endo k co) x = Ok r /\
      forall i n q, (i < nrow (gdp_nodes p))%nat -> (n < length s)%nat ->
        r i n q = euler g f (gdp_k p) (gdp_iweights p i) (gdp_inodes p i) (fun j => v (gdp_inodes p i j))
                        (row (gdp_nodes p) i) (nth n s []) (at_node n_x x i n) q.
Proof. exact residuals_gdp. Qed.
Print Assumptions C28_gdp.

(** A two-state chain, one state s, one control x, arbitrage x + X' m', rule X' = m' + S at the next node. *)
Example C28_example :
  euler (fun _ s _ _ => s) (fun m s x M S X k => hd 0 x + hd 0 X * hd 0 M) 2
        (fun j => match j with O => 1/4 | _ => 3/4 end) (fun j => [INR j]) (fun j S => [INR j + hd 0 S])
        [0] [2] [5] 0 = 5 + (1/4) * 2 * 0 + (3/4) * 3 * 1.
Proof. unfold euler. cbn. lra. Qed.

(** C29.  What the result of [time_iteration] says is true: number of updates, size of the last one,
    and every earlier one was larger than the tolerance. *)
Theorem C29_run :
  forall g f exo s n_x interpolate lsolve nan tol maxit im bounds x0 r,
      time_iteration g f exo s n_x interpolate lsolve nan tol maxit im bounds x0 = Ok r ->
      (1 <= ti_iterations r <= maxit)%nat /\ tol < 10 /\
      (ti_converged r = true <-> ti_err r < tol) /\
      ((ti_iterations r < maxit)%nat -> ti_err r <= tol) /\
      exists p nit,
        updates (big_update g f exo s n_x interpolate lsolve nan im bounds tol) (ti_iterations r - 1) x0 p /\
        ti_update g f exo s n_x interpolate lsolve nan im bounds nit p (ti_controls r) /\
        distance_is (ex_n exo) (length s) n_x (ti_controls r) p (ti_err r).
Proof. exact time_iteration_run. Qed.
Print Assumptions C29_run.

(** C29.  Without a single pass there is no result. *)
Theorem C29_never_runs :
  forall g f exo s n_x interpolate lsolve nan tol maxit im bounds x0,
    maxit = 0%nat \/ 10 <= tol ->
    time_iteration g f exo s n_x interpolate lsolve nan tol maxit im bounds x0 = Err ExcName.
Proof. exact never_runs. Qed.
Print Assumptions C29_never_runs.

(** A run that converges: arbitrage x = 2, starting from 0. *)
Example C29_example :
  forall ip nan, exists r,
    time_iteration (fun _ s _ _ => s) eq2 one_exo [[0]] 1 ip diag_solve nan (1 / 1000) 5 10 None (fun _ _ _ => 0) = Ok r /\
    ti_converged r = true /\ ti_iterations r = 2%nat /\ ti_controls r 0%nat 0%nat 0%nat = 2.
Proof. exact small_run. Qed.

(** C86, with bounds: when the last inner solve stopped by itself, the returned controls satisfy the
    complementarity conditions, up to the inner tolerance, against the expectation of the arbitrage
    function under the previous rule; that rule is at the reported distance. *)
Theorem C86_with_bounds :
  forall g f exo s n_x interpolate lsolve nan tol maxit im lb ub x0 r,
    interpolates_values exo (length s) n_x interpolate ->
    (forall i n k, (i < ex_n exo)%nat -> (n < length s)%nat -> (k < n_x)%nat ->
       lb i n k <> PInf /\ ub i n k <> MInf /\ ext_le (lower_cut BIG (lb i n k)) (upper_cut BIG (ub i n k))) ->
    time_iteration g f exo s n_x interpolate lsolve nan tol maxit im (Some (lb, ub)) x0 = Ok r ->
    exists p nit,
      ti_update g f exo s n_x interpolate lsolve nan im (Some (lb, ub)) nit p (ti_controls r) /\
      distance_is (ex_n exo) (length s) n_x (ti_controls r) p (ti_err r) /\
      ((nit < im)%nat ->
       forall i n k, (i < ex_n exo)%nat -> (n < length s)%nat -> (k < n_x)%nat ->
         mcp_approx (3 * ncp_tol) (lower_cut BIG (lb i n k)) (upper_cut BIG (ub i n k)) (ti_controls r i n k)
           (euler g f (dp_n (ex_dp exo) i) (dp_weight (ex_dp exo) i) (dp_node (ex_dp exo) i) (interpolate p i)
                  (ex_node exo i) (nth n s []) (at_node n_x (ti_controls r) i n) k)).
Proof. exact bounds_final. Qed.
Print Assumptions C86_with_bounds.

(** C86, without bounds; and, when expectations are Lipschitz in the rule, the residual of the
    returned rule itself. *)
Theorem C86_without_bounds :
  forall g f exo s n_x interpolate lsolve nan tol maxit im x0 r,
    interpolates_values exo (length s) n_x interpolate ->
    time_iteration g f exo s n_x interpolate lsolve nan tol maxit im None x0 = Ok r ->
    let E := fun (rule x : tensor) i n k =>
      euler g f (dp_n (ex_dp exo) i) (dp_weight (ex_dp exo) i) (dp_node (ex_dp exo) i) (interpolate rule i)
            (ex_node exo i) (nth n s []) (at_node n_x x i n) k in
    exists p nit,
      ti_update g f exo s n_x interpolate lsolve nan im None nit p (ti_controls r) /\
      distance_is (ex_n exo) (length s) n_x (ti_controls r) p (ti_err r) /\
      ((nit < im)%nat ->
       forall i n k, (i < ex_n exo)%nat -> (n < length s)%nat -> (k < n_x)%nat ->
         Rabs (E p (ti_controls r) i n k) < newton_tol /\
         (forall K, (forall a b e, distance_is (ex_n exo) (length s) n_x a b e ->
                        Rabs (E a a i n k - E b a i n k) <= K * e) ->
                    Rabs (E (ti_controls r) (ti_controls r) i n k) < newton_tol + K * ti_err r)).
Proof. exact free_final. Qed.
Print Assumptions C86_without_bounds.

(** C86 fails when the inner solver is stopped by its iteration limit: with [inner_maxit = 0] any
    initial guess is reported as converged. *)
Theorem C86_inner_limit_refuted :
  forall g f exo s n_x interpolate lsolve nan tol maxit bounds x0,
    size exo s n_x <> 0%nat -> 0 < tol < 10 -> (0 < maxit)%nat ->
    exists r, time_iteration g f exo s n_x interpolate lsolve nan tol maxit 0 bounds x0 = Ok r /\
      ti_converged r = true /\ ti_iterations r = 1%nat /\
      forall i n k, (n < length s)%nat -> (k < n_x)%nat -> ti_controls r i n k = x0 i n k.
Proof. exact no_inner. Qed.
Print Assumptions C86_inner_limit_refuted.

(** The hypotheses of C86 hold for the run above. *)
Example C86_example :
  interpolates_values one_exo 1 1 (fun x i _ _ => [x i 0%nat 0%nat]) /\
  size one_exo [[0]] 1 <> 0%nat.
Proof.
  split; [|cbn; lia]. intros x y H i j p Hi Hj. f_equal. apply H; [exact Hi| |]; constructor.
Qed.

(** C87.  Warm start from a rule over an unstructured exogenous grid. *)
Theorem C87_unstructured :
  forall el pre ec exo nodes endo dims x0 n_x x,
    cubic_contract pre ec -> cartesian_grid endo dims -> (0 < prodn dims)%nat -> length x0 = n_x ->
    exists c, get_coefficients pre (GUnstructured nodes) endo Cubic (nd_of (ex_n exo) (prodn dims) n_x x) = Ok c /\
    exists y, initial_controls exo (map (node_of endo) (seq 0 (prodn dims))) x0
                (Some (call2 (eval_is el ec (GUnstructured nodes) endo Cubic c) (eval_ms el ec (GUnstructured nodes) endo Cubic c))) = Ok y /\
      forall i n k, (i < ex_n exo)%nat -> (n < prodn dims)%nat -> (k < n_x)%nat -> y i n k = x i n k.
Proof. exact warm_start_unstructured. Qed.
Print Assumptions C87_unstructured.

(** C87.  Warm start from a rule without exogenous states. *)
Theorem C87_empty :
  forall el pre ec exo endo dims x0 n_x x k,
    linear_contract el -> cubic_contract pre ec -> cartesian_grid endo dims -> (0 < prodn dims)%nat -> length x0 = n_x ->
    k = Linear \/ k = Cubic -> ex_n exo = 1%nat ->
    exists c, get_coefficients pre GEmpty endo k (nd_of 1 (prodn dims) n_x x) = Ok c /\
    exists y, initial_controls exo (map (node_of endo) (seq 0 (prodn dims))) x0
                (Some (call2 (eval_is el ec GEmpty endo k c) (eval_ms el ec GEmpty endo k c))) = Ok y /\
      forall n q, (n < prodn dims)%nat -> (q < n_x)%nat -> y 0%nat n q = x 0%nat n q.
Proof. exact warm_start_empty. Qed.
Print Assumptions C87_empty.

(** C87 fails over a Cartesian exogenous grid: the warm start raises. *)
Theorem C87_cartesian_refuted :
  forall el ec dexo_ s x0 exo endo k c g,
    (exists u, exo = GUniform u) \/ (exists u, exo = GNonUniform u) -> k = Linear \/ k = Cubic ->
    grid_add exo endo = Ok g -> length s <> 1%nat -> (0 < ex_n dexo_)%nat -> (0 < n_nodes exo)%nat ->
    initial_controls dexo_ s x0 (Some (call2 (eval_is el ec exo endo k c) (eval_ms el ec exo endo k c))) = Err ExcValue.
Proof. exact warm_start_cartesian. Qed.
Print Assumptions C87_cartesian_refuted.

