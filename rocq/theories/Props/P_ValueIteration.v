(** Property theorems C33, C34, C88: policy evaluation and value iteration. *)
From Coq Require Import String Reals List Arith Lia Lra.
From Verif.Base Require Import Prelude Arrays Sums.
From Verif.Spec Require Import Euler Bellman.
From Verif.Model Require Import Discretization Distributions Processes TimeIteration ImprovedTimeIteration ValueIteration.
From Verif.Spec Require Import ValueIteration.
From Verif.Proofs Require Import TimeIterationProofs ImprovedTimeIterationProofs ValueIterationProofs.
Import ListNotations.
Open Scope R_scope.

(** C33.  One update is the expected value of following the policy once. *)
Theorem C33_update :
  forall g val exo s n_x n_v x v dr drv i n k,
    (i < ex_n exo)%nat -> (n < length s)%nat ->
    update_value g val exo s n_x n_v x v dr drv i n k =
    policy_value g val (dp_n (ex_dp exo) 0) (dp_weight (ex_dp exo) i) (dp_node (ex_dp exo) i) (dr i) (drv i)
      (ex_node exo i) (nth n s []) (at_node n_x x i n) (at_node n_v v i n) k.
Proof. exact update_value_value. Qed.
Print Assumptions C33_update.

(** C33.  The update contracts with modulus beta K: discount factor times the Lipschitz constant of the
    interpolation. *)
Theorem C33_contraction :
  forall g val exo s n_x n_v interpolate x dr beta K,
    discounts n_v beta val ->
    interpolation_lipschitz (ex_n exo) (dp_n (ex_dp exo) 0) (length s) n_v K interpolate ->
    (forall i, (i < ex_n exo)%nat -> probability (dp_n (ex_dp exo) 0) (dp_weight (ex_dp exo) i)) ->
    forall v v' c, 0 <= c ->
      (forall i n k, (i < ex_n exo)%nat -> (n < length s)%nat -> (k < n_v)%nat -> Rabs (v i n k - v' i n k) <= c) ->
      forall i n k, (i < ex_n exo)%nat -> (n < length s)%nat -> (k < n_v)%nat ->
        Rabs (update_value g val exo s n_x n_v x v dr (interpolate v) i n k
              - update_value g val exo s n_x n_v x v' dr (interpolate v') i n k) <= beta * (K * c).
Proof. exact update_contracts. Qed.
Print Assumptions C33_contraction.

(** C33.  What [evaluate_policy] returns: the iterate before the last, and the size of the last update. *)
Theorem C33_result :
  forall g val exo s n_x n_v interpolate x dr tol maxit v0 r, tol < 10 -> (0 < maxit)%nat ->
    let U := fun v => update_value g val exo s n_x n_v x v dr (interpolate v) in
    evaluate_policy g val exo s n_x n_v interpolate x dr tol maxit v0 = Ok r ->
    exists q, (q < maxit)%nat /\ ep_iterations r = S q /\ ep_values r = Some (iterate U q v0) /\
      distance_is (ex_n exo) (length s) n_v (iterate U (S q) v0) (iterate U q v0) (ep_err r) /\
      (forall c, (c < q)%nat -> exists e, distance_is (ex_n exo) (length s) n_v (iterate U (S c) v0) (iterate U c v0) e /\ tol < e) /\
      ((S q < maxit)%nat -> ep_err r <= tol).
Proof. exact evaluate_policy_run. Qed.
Print Assumptions C33_result.

(** C33.  Distance of the n-th iterate to the value of the policy. *)
Theorem C33_error :
  forall g val exo s n_x n_v interpolate x dr beta K,
    discounts n_v beta val ->
    interpolation_lipschitz (ex_n exo) (dp_n (ex_dp exo) 0) (length s) n_v K interpolate ->
    (forall i, (i < ex_n exo)%nat -> probability (dp_n (ex_dp exo) 0) (dp_weight (ex_dp exo) i)) ->
    forall vs,
    let U := fun v => update_value g val exo s n_x n_v x v dr (interpolate v) in
    let dist := fun a b => tnorm (ex_n exo) (length s) n_v (fun i n k => a i n k - b i n k) in
    (forall i n k, (i < ex_n exo)%nat -> (n < length s)%nat -> (k < n_v)%nat -> U vs i n k = vs i n k) ->
    0 <= beta * K -> (0 < ex_n exo * length s * n_v)%nat ->
    forall n v0, dist (iterate U n v0) vs <= (beta * K) ^ n * dist v0 vs.
Proof. exact iterate_error. Qed.
Print Assumptions C33_error.

(** C33.  The values stored in the returned rule are within err / (1 - beta K) of the value of the policy,
    where err is the size of the update that starts from them. *)
Theorem C33_distance :
  forall g val exo s n_x n_v interpolate x dr beta K,
    discounts n_v beta val ->
    interpolation_lipschitz (ex_n exo) (dp_n (ex_dp exo) 0) (length s) n_v K interpolate ->
    (forall i, (i < ex_n exo)%nat -> probability (dp_n (ex_dp exo) 0) (dp_weight (ex_dp exo) i)) ->
    forall vs,
    let U := fun v => update_value g val exo s n_x n_v x v dr (interpolate v) in
    let dist := fun a b => tnorm (ex_n exo) (length s) n_v (fun i n k => a i n k - b i n k) in
    (forall i n k, (i < ex_n exo)%nat -> (n < length s)%nat -> (k < n_v)%nat -> U vs i n k = vs i n k) ->
    0 <= beta * K < 1 -> (0 < ex_n exo * length s * n_v)%nat ->
    forall v, dist v vs <= dist (U v) v / (1 - beta * K).
Proof. exact stored_error. Qed.
Print Assumptions C33_distance.

(** C33.  With enough iterations allowed, [evaluate_policy] stops on its tolerance. *)
Theorem C33_stops :
  forall g val exo s n_x n_v interpolate x dr beta K tol v0,
    discounts n_v beta val ->
    interpolation_lipschitz (ex_n exo) (dp_n (ex_dp exo) 0) (length s) n_v K interpolate ->
    (forall i, (i < ex_n exo)%nat -> probability (dp_n (ex_dp exo) 0) (dp_weight (ex_dp exo) i)) ->
    0 <= beta * K < 1 -> 0 < tol < 10 -> (0 < ex_n exo * length s * n_v)%nat ->
    exists m, forall maxit, (m < maxit)%nat ->
      exists r, evaluate_policy g val exo s n_x n_v interpolate x dr tol maxit v0 = Ok r /\ ep_err r <= tol /\ (ep_iterations r <= m)%nat.
Proof. exact evaluate_policy_stops. Qed.
Print Assumptions C33_stops.

(** v = x + V'/2 meets the hypotheses; the value of the policy x = 3 is 6. *)
Example C33_example :
  discounts 1 (1/2) tiny_val /\ interpolation_lipschitz 1 1 1 1 1 const_ip /\
  probability (dp_n (ex_dp one_exo) 0) (dp_weight (ex_dp one_exo) 0) /\
  update_value (fun _ s _ _ => s) tiny_val one_exo [[0%R]] 1 1 (fun _ _ _ => 3) (fun _ _ _ => 6) (fun _ _ S => S)
    (const_ip (fun _ _ _ => 6)) 0%nat 0%nat 0%nat = 6.
Proof.
  repeat split.
  - intros m s x v v' M S X V V' k c Hk H. specialize (H 0%nat ltac:(lia)). unfold tiny_val.
    replace (hd 0 V) with (nth 0 V 0) by (destruct V; reflexivity).
    replace (hd 0 V') with (nth 0 V' 0) by (destruct V'; reflexivity).
    replace (_ - _) with ((nth 0 V 0 - nth 0 V' 0) * (1/2)) by lra. rewrite Rabs_mult, (Rabs_pos_eq (1/2)) by lra. lra.
  - intros v v' c Hc H i j p q Hi Hj Hq. assert (q = 0%nat) as -> by lia. cbn. rewrite Rmult_1_l. apply H; lia.
  - intros j Hj. cbn. lra.
  - cbn. lra.
  - rewrite update_value_value by (cbn; lia). unfold policy_value, tiny_val. cbn. lra.
Qed.

(** C34.  What value iteration says about its run: it stops early only within the tolerances, and each flag
    compares the reported error with the reported tolerance. *)
Theorem C34_run :
  forall g u val exo s n_x beta v0 lb ub interp_x interp_v call_v node_x node_v minimize tol maxit x0 r,
    value_iteration g u val exo s n_x beta v0 lb ub interp_x interp_v call_v node_x node_v minimize tol maxit x0 = Ok r ->
    (1 <= vi_iterations r <= maxit)%nat /\
    ((vi_iterations r < maxit)%nat -> vi_v_err r <= tol /\ vi_x_err r <= 1/100000) /\
    (vi_x_converged r = true <-> vi_x_err r < 1/100000) /\
    (vi_v_converged r = true <-> vi_v_err r < 1/10000000).
Proof. exact value_iteration_flags. Qed.
Print Assumptions C34_run.

(** C34 holds when the tolerance asked for is below 1e-7 and the last change of the controls is not exactly 1e-5. *)
Theorem C34_partial :
  forall g u val exo s n_x beta v0 lb ub interp_x interp_v call_v node_x node_v minimize tol maxit x0 r,
    value_iteration g u val exo s n_x beta v0 lb ub interp_x interp_v call_v node_x node_v minimize tol maxit x0 = Ok r ->
    (vi_iterations r < maxit)%nat -> tol < 1/10000000 -> vi_x_err r <> 1/100000 ->
    vi_x_converged r = true /\ vi_v_converged r = true.
Proof. exact value_iteration_small_tol. Qed.
Print Assumptions C34_partial.

(** C34 fails with the default tolerance: the loop stops within its tolerances and the value is reported not converged. *)
Theorem C34_refuted :
  forall maxit, (2 <= maxit)%nat ->
    exists r, tiny_run maxit = Ok r /\ (vi_iterations r < maxit)%nat /\ vi_v_err r <= 1 / 1000000 /\ vi_x_err r <= vi_tol_x /\
      vi_v_converged r = false.
Proof. exact flags_refuted. Qed.
Print Assumptions C34_refuted.

(** C34.  With maxit = 0 there is no result. *)
Theorem C34_never_runs :
  forall g u val exo s n_x beta v0 lb ub interp_x interp_v call_v node_x node_v minimize tol x0,
    value_iteration g u val exo s n_x beta v0 lb ub interp_x interp_v call_v node_x node_v minimize tol 0 x0 = Err ExcName.
Proof. exact value_iteration_zero. Qed.
Print Assumptions C34_never_runs.

(** C88.  The returned values are Bellman's objective at the returned controls, with the future value given by the
    evaluation of the previous policy; the errors are the distances to the previous policy and its value; and the
    controls maximise the objective over the bounds if the numerical minimiser finds minima. *)
Theorem C88_bellman :
  forall g u val exo s n_x beta v0 lb ub interp_x interp_v call_v node_x node_v minimize W,
    index_is_point exo call_v W ->
    forall tol maxit x0 r,
    value_iteration g u val exo s n_x beta v0 lb ub interp_x interp_v call_v node_x node_v minimize tol maxit x0 = Ok r ->
    exists c0 w,
      (exists start e, evaluate_policy g val exo s n_x 1 interp_v (node_x c0) (interp_x c0) ep_tol ep_maxit start = Ok e
                       /\ ep_values e = Some w) /\
      bellman_values g u beta exo s n_x W w (vi_controls r) (vi_values r) /\
      distance_is (ex_n exo) (length s) n_x (vi_controls r) c0 (vi_x_err r) /\
      distance_is (ex_n exo) (length s) 1 (fun i n _ => vi_values r i n) (node_v w) (vi_v_err r) /\
      (maximises g u beta exo s W lb ub minimize ->
       (forall i n, (i < ex_n exo)%nat -> (n < length s)%nat ->
          length (lb (ex_node exo i) (nth n s [])) = n_x /\ length (ub (ex_node exo i) (nth n s [])) = n_x) ->
       greedy g u beta exo s n_x W lb ub w (vi_controls r)).
Proof. exact value_iteration_bellman. Qed.
Print Assumptions C88_bellman.

Example C88_example :
  index_is_point one_exo (fun w j _ => w j 0%nat 0%nat) (fun w _ _ => w 0%nat 0%nat 0%nat) /\
  maximises (fun _ s _ _ => s) tiny_u (1/2) one_exo [[0%R]] (fun w _ _ => w 0%nat 0%nat 0%nat) tiny_lb tiny_ub top /\
  exists r, tiny_run 2 = Ok r.
Proof.
  split; [|split].
  - intros w i j S Hi Hj. cbn in Hj. assert (j = 0%nat) as -> by lia. reflexivity.
  - intros w i n Hi Hn. cbv zeta. intros f x Hf. unfold in_box, tiny_lb, tiny_ub, top. cbn [combine map snd]. split.
    + constructor; [|constructor]. cbn. lra.
    + intros y Hy. inversion Hy as [|? y0 ? l Hy0 Hl]; subst. cbn in Hy0. inversion Hl; subst. unfold bellman, tiny_u. cbn. lra.
  - destruct (flags_refuted 2 (le_n 2)) as (r & Hr & _). exists r. exact Hr.
Qed.

(** C88.  The objective maximised is Bellman's, for a Markov chain ... *)
Theorem C88_markov_chain :
  forall g u c beta call W i s x,
    (forall j S, (j < ncol (snd c))%nat -> exists l, call j S = Ok (W (row (fst c) j) S :: l)) ->
    choice_value g u (mc_exo c) beta call i s x =
    Ok (bellman g u beta (ncol (snd c)) (mget (snd c) i) (row (fst c)) W (row (fst c) i) s x).
Proof. exact choice_markov. Qed.
Print Assumptions C88_markov_chain.

(** ... and for iid shocks ... *)
Theorem C88_iid :
  forall g u d dim beta call W i s x,
    (forall j S, exists l, call j S = Ok (W S :: l)) ->
    choice_value g u (iid_exo d dim) beta call i s x =
    Ok (bellman g u beta (iid_n d) (iid_weight d) (iid_point d) (fun _ => W) (repeat 0 dim) s x).
Proof. exact choice_iid. Qed.
Print Assumptions C88_iid.

(** ... but not for quadrature points that are not the nodes of the grid: the rule is called with the index of
    the quadrature point, read as the index of a node. *)
Theorem C88_gdp_refuted :
  let call := fun j S => Ok [first_coord (row (gdp_nodes shift_gdp) j) S] in
  choice_value (fun _ s _ _ => s) (fun _ _ _ => 0) (gdp_exo shift_gdp) 1 call 0 [0] [0] = Ok 0 /\
  bellman (fun _ s _ _ => s) (fun _ _ _ => 0) 1 (gdp_k shift_gdp) (gdp_iweights shift_gdp 0) (gdp_inodes shift_gdp 0)
          first_coord (row (gdp_nodes shift_gdp) 0) [0] [0] = 1.
Proof. exact choice_gdp_refuted. Qed.
Print Assumptions C88_gdp_refuted.
