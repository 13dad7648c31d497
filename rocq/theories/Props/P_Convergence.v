(** Property theorems C114-C117: how far the solution algorithms stop from the solution. *)
From Coq Require Import String Reals List Arith Lia Lra.
From Verif.Base Require Import Prelude.
From Verif.Base Require Import Sums Ext.
From Verif.Spec Require Import Euler Bellman Convergence.
From Verif.Model Require Import Processes TimeIteration ValueIteration Egm.
From Verif.Spec Require Import TimeIteration ValueIteration Egm.
From Verif.Proofs Require Import TimeIterationProofs ImprovedTimeIterationProofs TiConvergence ValueIterationProofs ViConvergence Howard EgmProofs EgmConvergence.
Import ListNotations.
Open Scope R_scope.

(** C114.  Models without bounds.  Suppose that expected arbitrages move today's controls with a slope of at least [a]
    and depend on tomorrow's rule with a Lipschitz constant [K] smaller than [a], and that the inner Newton solver
    stops by itself.  Then time iteration stops on its tolerance, after at most m + 1 passes if
    (K/a)^m D + 2 newton_tol / (a - K) does not exceed the tolerance, D bounding the first update; and the controls it
    returns are at most (K err + newton_tol) / (a - K) away from those of any equilibrium of the discretised model. *)
Theorem C114_equilibrium :
  forall g f exo s n_x interpolate lsolve nan a K,
  let E := arbitrage_at g f exo s n_x interpolate in
  let near := within (ex_n exo) (length s) n_x in
  0 <= K < a ->
  (forall r x y e, near (E r x) (E r y) e -> near x y (e / a)) ->
  (forall r r' x e, near r r' e -> near (E r x) (E r' x) (K * e)) ->
  interpolates_values exo (length s) n_x interpolate ->
  forall im,
  (forall p, exists nit c, (nit < im)%nat /\ ti_update g f exo s n_x interpolate lsolve nan im None nit p c) ->
  forall tol x0 m D, tol < 10 -> size exo s n_x <> 0%nat ->
  (forall nit c, ti_update g f exo s n_x interpolate lsolve nan im None nit x0 c -> near c x0 D) ->
  (K / a) ^ m * D + 2 * newton_tol / (a - K) <= tol ->
  forall maxit, (m < maxit)%nat ->
  exists r, time_iteration g f exo s n_x interpolate lsolve nan tol maxit im None x0 = Ok r /\
    ti_err r <= tol /\ (ti_iterations r <= S m)%nat /\
    forall xs, (forall i n k, (i < ex_n exo)%nat -> (n < length s)%nat -> (k < n_x)%nat -> E xs xs i n k = 0) ->
      near (ti_controls r) xs ((K * ti_err r + newton_tol) / (a - K)).
Proof. exact ti_free_converges. Qed.
Print Assumptions C114_equilibrium.

(** C114, with or without bounds, when updates are known to contract up to [del]. *)
Theorem C114_stops :
  forall g f exo s n_x interpolate lsolve nan,
  let upd := ti_update g f exo s n_x interpolate lsolve nan in
  let near := within (ex_n exo) (length s) n_x in
  forall tol im bounds x0 lam del m D,
  0 <= lam < 1 -> 0 <= del -> tol < 10 -> size exo s n_x <> 0%nat ->
  (forall p, exists nit c, upd im bounds nit p c) ->
  (forall n1 n2 p q p' q' e, upd im bounds n1 p q -> upd im bounds n2 p' q' -> near p p' e -> near q q' (lam * e + del)) ->
  (forall nit c, upd im bounds nit x0 c -> near c x0 D) ->
  lam ^ m * D + del / (1 - lam) <= tol ->
  forall maxit, (m < maxit)%nat ->
  exists r, time_iteration g f exo s n_x interpolate lsolve nan tol maxit im bounds x0 = Ok r /\
    ti_err r <= tol /\ (ti_iterations r <= S m)%nat.
Proof. exact ti_stops. Qed.
Print Assumptions C114_stops.

(** C114.  Distance from the returned controls to any controls towards which updates contract. *)
Theorem C114_error :
  forall g f exo s n_x interpolate lsolve nan,
  let upd := ti_update g f exo s n_x interpolate lsolve nan in
  let near := within (ex_n exo) (length s) n_x in
  forall tol maxit im bounds x0 r xs lam del,
  0 <= lam < 1 ->
  (forall nit p c e, upd im bounds nit p c -> near p xs e -> near c xs (lam * e + del)) ->
  time_iteration g f exo s n_x interpolate lsolve nan tol maxit im bounds x0 = Ok r ->
  near (ti_controls r) xs ((lam * ti_err r + del) / (1 - lam)).
Proof. exact ti_error. Qed.
Print Assumptions C114_error.

(** The arbitrage x - X'/2 - 1 with one node meets all hypotheses: a = 1, K = 1/2, equilibrium 2. *)
Example C114_example : forall nan, exists r,
  time_iteration (fun _ s _ _ => s) half_f one_exo [[0]] 1 node_ip diag_solve nan (1 / 1000) 50 10 None (fun _ _ _ => 0) = Ok r /\
  ti_err r <= 1 / 1000 /\ (ti_iterations r <= 13)%nat /\ Rabs (ti_controls r 0%nat 0%nat 0%nat - 2) <= 1002 / 1000000.
Proof.
  intros nan.
  destruct (C114_equilibrium (fun _ s _ _ => s) half_f one_exo [[0]] 1 node_ip diag_solve nan 1 (1 / 2) ltac:(lra)
    half_slope half_lip half_local 10 (half_stop nan 10 ltac:(lia)) (1 / 1000) (fun _ _ _ => 0) 12 2 ltac:(lra) ltac:(cbn; lia)
    (half_first nan 10 ltac:(lia))) with (maxit := 50%nat) as (r & H1 & H2 & H3 & H4).
  - unfold newton_tol. replace ((1 / 2 / 1) ^ 12) with (1 / 4096) by field. lra.
  - lia.
  - exists r. repeat (split; [assumption|]).
    eapply Rle_trans; [apply (H4 (fun _ _ _ => 2)); [|cbn; lia..]|unfold newton_tol; lra].
    intros i n k Hi Hn Hk. cbn in Hi, Hn. assert (i = 0 /\ n = 0)%nat as (-> & ->) by lia. rewrite half_E. lra.
Qed.

(** C115.  The values returned by value iteration are within beta K err_v / (1 - beta K) of the solution of Bellman's
    equation on the grid, and of the value of following the returned controls for ever; K is the Lipschitz constant of
    the interpolation of values (1 for piecewise linear rules), err_v the reported error. *)
Theorem C115_value :
  forall g u val exo s n_x beta v0 lb ub interp_x interp_v call_v node_x node_v minimize W K,
    index_is_point exo call_v W ->
    0 <= beta -> beta * K < 1 -> value_rule_lipschitz exo (length s) W K ->
    (forall i, (i < ex_n exo)%nat -> probability (dp_n (ex_dp exo) i) (dp_weight (ex_dp exo) i)) ->
    (forall w i n, (i < ex_n exo)%nat -> (n < length s)%nat -> node_v w i n 0%nat = w i n 0%nat) ->
    maximises g u beta exo s W lb ub minimize ->
    (forall i n, (i < ex_n exo)%nat -> (n < length s)%nat ->
       length (lb (ex_node exo i) (nth n s [])) = n_x /\ length (ub (ex_node exo i) (nth n s [])) = n_x) ->
    forall tol maxit x0 r,
    value_iteration g u val exo s n_x beta v0 lb ub interp_x interp_v call_v node_x node_v minimize tol maxit x0 = Ok r ->
    forall i n, (i < ex_n exo)%nat -> (n < length s)%nat ->
      (forall vs, bellman_solution g u beta exo s W lb ub vs ->
         Rabs (vi_values r i n - vs i n 0%nat) <= beta * K * vi_v_err r / (1 - beta * K)) /\
      (forall vc, value_of_controls g u beta exo s n_x W (vi_controls r) vc ->
         Rabs (vi_values r i n - vc i n 0%nat) <= beta * K * vi_v_err r / (1 - beta * K)).
Proof. exact vi_optimal. Qed.
Print Assumptions C115_value.

(** C115.  What is lost by following the returned controls instead of the optimal ones. *)
Theorem C115_policy :
  forall g u val exo s n_x beta v0 lb ub interp_x interp_v call_v node_x node_v minimize W K,
    index_is_point exo call_v W ->
    0 <= beta -> beta * K < 1 -> value_rule_lipschitz exo (length s) W K ->
    (forall i, (i < ex_n exo)%nat -> probability (dp_n (ex_dp exo) i) (dp_weight (ex_dp exo) i)) ->
    (forall w i n, (i < ex_n exo)%nat -> (n < length s)%nat -> node_v w i n 0%nat = w i n 0%nat) ->
    maximises g u beta exo s W lb ub minimize ->
    (forall i n, (i < ex_n exo)%nat -> (n < length s)%nat ->
       length (lb (ex_node exo i) (nth n s [])) = n_x /\ length (ub (ex_node exo i) (nth n s [])) = n_x) ->
    forall tol maxit x0 r,
    value_iteration g u val exo s n_x beta v0 lb ub interp_x interp_v call_v node_x node_v minimize tol maxit x0 = Ok r ->
    forall vs vc, bellman_solution g u beta exo s W lb ub vs -> value_of_controls g u beta exo s n_x W (vi_controls r) vc ->
    forall i n, (i < ex_n exo)%nat -> (n < length s)%nat ->
      Rabs (vc i n 0%nat - vs i n 0%nat) <= 2 * (beta * K * vi_v_err r / (1 - beta * K)).
Proof. exact vi_policy. Qed.
Print Assumptions C115_policy.

(** C115.  Bellman's equation on the grid has at most one solution. *)
Theorem C115_unique : forall g u exo s beta W K lb ub,
    0 <= beta -> beta * K < 1 -> value_rule_lipschitz exo (length s) W K ->
    (forall i, (i < ex_n exo)%nat -> probability (dp_n (ex_dp exo) i) (dp_weight (ex_dp exo) i)) ->
    forall v v', bellman_solution g u beta exo s W lb ub v -> bellman_solution g u beta exo s W lb ub v' ->
    forall i n, (i < ex_n exo)%nat -> (n < length s)%nat -> v i n 0%nat = v' i n 0%nat.
Proof. exact bellman_unique. Qed.
Print Assumptions C115_unique.

(** C115.  It has one, and every policy has a value. *)
Theorem C115_exists : forall g u exo s beta W K lb ub minimize,
    0 <= beta -> beta * K < 1 -> value_rule_lipschitz exo (length s) W K ->
    (forall i, (i < ex_n exo)%nat -> probability (dp_n (ex_dp exo) i) (dp_weight (ex_dp exo) i)) ->
    maximises g u beta exo s W lb ub minimize ->
    exists vs, bellman_solution g u beta exo s W lb ub vs.
Proof. exact bellman_exists. Qed.
Print Assumptions C115_exists.

Theorem C115_policy_value : forall g u exo s n_x beta W K,
    0 <= beta -> beta * K < 1 -> value_rule_lipschitz exo (length s) W K ->
    (forall i, (i < ex_n exo)%nat -> probability (dp_n (ex_dp exo) i) (dp_weight (ex_dp exo) i)) ->
    forall c, exists vc, value_of_controls g u beta exo s n_x W c vc.
Proof. exact policy_value_exists. Qed.
Print Assumptions C115_policy_value.

(** The run of C88_example meets the hypotheses: felicity x, x in [0, 5e-7], beta = 1/2, optimal value 1e-6. *)
Example C115_example :
  let W := fun (w : tensor) (_ _ : list R) => w 0%nat 0%nat 0%nat in
  value_rule_lipschitz one_exo 1 W 1 /\
  bellman_solution (fun _ s _ _ => s) tiny_u (1 / 2) one_exo [[0%R]] W tiny_lb tiny_ub (fun _ _ _ => 1 / 1000000) /\
  exists r, tiny_run 2 = Ok r /\ Rabs (vi_values r 0%nat 0%nat - 1 / 1000000) <= vi_v_err r.
Proof.
  intros W.
  assert (HL : value_rule_lipschitz one_exo 1 W 1).
  { intros w w' e He H i j S Hi Hj. rewrite Rmult_1_l. apply H; cbn; lia. }
  assert (HB : bellman_solution (fun _ s _ _ => s) tiny_u (1 / 2) one_exo [[0%R]] W tiny_lb tiny_ub (fun _ _ _ => 1 / 1000000)).
  { intros i n Hi Hn box J. subst box J. unfold objective_at, bellman, W, tiny_u, tiny_lb, tiny_ub, in_box. cbn. split.
    - exists [5 / 10000000]. split; [constructor; [cbn; lra|constructor]|cbn; lra].
    - intros y Hy. inversion Hy as [|? y0 ? l Hy0 Hl]; subst. cbn in Hy0 |- *. lra. }
  split; [exact HL|]. split; [exact HB|].
  destruct (flags_refuted 2 (le_n 2)) as (r & Hr & _). exists r. split; [exact Hr|].
  assert (HM : maximises (fun _ s _ _ => s) tiny_u (1 / 2) one_exo [[0%R]] W tiny_lb tiny_ub top).
  { intros w i n Hi Hn. cbv zeta. intros f x Hf. unfold in_box, tiny_lb, tiny_ub, top. cbn [combine map snd]. split.
    - constructor; [|constructor]. cbn. lra.
    - intros y Hy. inversion Hy as [|? y0 ? l Hy0 Hl]; subst. cbn in Hy0. inversion Hl; subst. unfold bellman, tiny_u. cbn. lra. }
  destruct (C115_value (fun _ s _ _ => s) tiny_u tiny_val one_exo [[0%R]] 1 (1 / 2) 0 tiny_lb tiny_ub const_ip const_ip
    (fun w j _ => w j 0%nat 0%nat) (fun x => x) (fun x => x) top W 1) with (tol := 1 / 1000000) (maxit := 2%nat) (x0 := [0]) (r := r) (i := 0%nat) (n := 0%nat) as (A & _);
    try assumption; try (cbn; lia); try lra.
  - intros w i j S Hi Hj. cbn in Hj. assert (j = 0%nat) as -> by lia. reflexivity.
  - intros i Hi. split; [intros j Hj; cbn; lra|cbn; lra].
  - reflexivity.
  - specialize (A _ HB). cbv beta in A. lra.
Qed.

(** C116.  Suppose that a step of the endogenous grid method brings any two policies closer by a factor [lam], and
    that the policies of the first two iterations are at most [D] apart.  Then the method stops on its tolerance, in
    iteration m + 1 at the latest if lam^m D is below the tolerance. *)
Theorem C116_stops :
  forall exo (is_iid : bool) s a N_a n_h h gt tau atau lb ub dr0 el nan,
  let step := egm_step exo is_iid a N_a n_h h gt tau atau lb ub el in
  let ap := apart (ex_n exo) N_a in
  (forall i (ss : R), lb (ex_node exo i) ss <> PInf /\ ub (ex_node exo i) ss <> MInf /\ ext_le (lb (ex_node exo i) ss) (ub (ex_node exo i) ss)) ->
  (0 < ex_n exo * N_a)%nat ->
  forall lam,
  (forall X sa xa sa' xa' Y sb xb sb' xb' e,
     step X sa xa sa' xa' -> step Y sb xb sb' xb' -> ap sa xa sb xb e -> ap sa' xa' sb' xb' (lam * e)) ->
  forall D,
  (forall X s1 x1 s2 x2,
     (forall i p, (i < ex_n exo)%nat -> (p < N_a)%nat ->
        egm_response n_h (dp_n (ex_dp exo) i) (dp_weight (ex_dp exo) i) (dp_node (ex_dp exo) i) dr0
                    h gt tau atau (ex_node exo i) (a p) (x1 i p) (s1 i p)) ->
     step X s1 x1 s2 x2 -> ap s2 x2 s1 x1 D) ->
  forall tol m maxit, (1 <= m)%nat -> lam ^ m * D < tol -> (m + 1 < maxit)%nat ->
  exists r, egm exo is_iid s a N_a n_h h gt tau atau lb ub dr0 el nan true tol maxit = Ok r /\
    egm_converged r = true /\ (egm_it r <= m + 1)%nat.
Proof. exact egm_stops. Qed.
Print Assumptions C116_stops.

(** C116.  Then the values of the returned rule are at most L eta / (1 - lam) away from those of any rule the step leaves
    unchanged, [L] being the Lipschitz constant of the interpolation and eta the reported error. *)
Theorem C116_error :
  forall exo (is_iid : bool) s a N_a n_h h gt tau atau lb ub dr0 el nan,
  let step := egm_step exo is_iid a N_a n_h h gt tau atau lb ub el in
  let ap := apart (ex_n exo) N_a in
  (forall i (ss : R), lb (ex_node exo i) ss <> PInf /\ ub (ex_node exo i) ss <> MInf /\ ext_le (lb (ex_node exo i) ss) (ub (ex_node exo i) ss)) ->
  forall lam L, 0 <= lam < 1 ->
  (forall X sa xa sa' xa' Y sb xb sb' xb' e,
     step X sa xa sa' xa' -> step Y sb xb sb' xb' -> ap sa xa sb xb e -> ap sa' xa' sb' xb' (lam * e)) ->
  (forall sa xa sb xb e i ss, (i < ex_n exo)%nat -> ap sa xa sb xb e -> Rabs (el (sa i) (xa i) ss - el (sb i) (xb i) ss) <= L * e) ->
  forall tol maxit r,
  egm exo is_iid s a N_a n_h h gt tau atau lb ub dr0 el nan true tol maxit = Ok r -> tol <= 1 -> egm_converged r = true ->
  forall X sa xa, step X sa xa sa xa ->
  forall i n, (i < ex_n exo)%nat -> Rabs (egm_values r i n - X i (nth n s 0)) <= L * (egm_eta r / (1 - lam)).
Proof. exact egm_near_fixed. Qed.
Print Assumptions C116_error.

(** C116.  Such a rule exists. *)
Theorem C116_exists :
  forall exo (is_iid : bool) a N_a n_h h gt tau atau lb ub el,
  let step := egm_step exo is_iid a N_a n_h h gt tau atau lb ub el in
  let ap := apart (ex_n exo) N_a in
  (forall i (ss : R), lb (ex_node exo i) ss <> PInf /\ ub (ex_node exo i) ss <> MInf /\ ext_le (lb (ex_node exo i) ss) (ub (ex_node exo i) ss)) ->
  forall lam, 0 <= lam < 1 ->
  (forall X sa xa sa' xa' Y sb xb sb' xb' e,
     step X sa xa sa' xa' -> step Y sb xb sb' xb' -> ap sa xa sb xb e -> ap sa' xa' sb' xb' (lam * e)) ->
  exists X sa xa, step X sa xa sa xa.
Proof. exact egm_fixed. Qed.
Print Assumptions C116_exists.

(** x = a/2 + X'/4 and s = a + x: a step halves distances, and the solution is the rule 0 at the lowest state. *)
Example C116_example : forall nan, exists r, quarter_run nan (1 / 1000) 20 = Ok r /\ egm_converged r = true /\
  (egm_it r <= 10)%nat /\ Rabs (egm_values r 0%nat 0%nat) <= 2 / 1000.
Proof.
  intros nan.
  assert (HB : forall (i : nat) (ss : R), MInf <> PInf /\ PInf <> MInf /\ ext_le MInf PInf) by (intros; repeat split; discriminate).
  destruct (C116_stops one_exo false [0] (fun p => INR p) 2 1 (fun _ _ X _ => X) (fun _ a _ => a) (fun _ a z => a / 2 + hd 0 z / 4)
    (fun _ a x => a + x) (fun _ _ => MInf) (fun _ _ => PInf) (fun _ _ => 1) (fun _ x _ => x 0%nat) nan HB ltac:(cbn; lia) (1 / 2)
    quarter_contracts (3 / 8) quarter_first (1 / 1000) 9 20) as (r & H1 & H2 & H3); [lia|cbn; lra|lia|].
  exists r. repeat (split; [assumption|]).
  assert (HL : forall sa xa sb xb e i (ss : R), (i < ex_n one_exo)%nat -> apart 1 2 sa xa sb xb e ->
            Rabs (xa i 0%nat - xb i 0%nat) <= 1 * e).
  { intros sa xa sb xb e i ss Hi (es & ex & He & A & B). cbn in Hi. specialize (B i 0%nat Hi ltac:(lia)).
    pose proof (A i 0%nat Hi ltac:(lia)). pose proof (Rabs_pos (sa i 0%nat - sb i 0%nat)). lra. }
  pose proof (C116_error one_exo false [0] (fun p => INR p) 2 1 (fun _ _ X _ => X) (fun _ a _ => a) (fun _ a z => a / 2 + hd 0 z / 4)
    (fun _ a x => a + x) (fun _ _ => MInf) (fun _ _ => PInf) (fun _ _ => 1) (fun _ x _ => x 0%nat) nan HB (1 / 2) 1 ltac:(lra)
    quarter_contracts HL (1 / 1000) 20 r H1 ltac:(lra) H2 _ _ _ quarter_fixed 0%nat 0%nat ltac:(cbn; lia)) as Q.
  destruct (egm_report _ _ _ _ _ _ _ _ _ _ _ _ _ _ _ _ _ _ H1) as (_ & Hc & _). apply Hc in H2.
  rewrite Rminus_0_r in Q. lra.
Qed.

(** C117.  Suppose that the value rule averages node values, that the value equation is felicity plus discounted future
    value, that the maximiser finds maxima, that felicity is bounded by [B] at the nodes, and that [V] bounds the
    calibrated value and B / (1 - beta).  Then value iteration returns a result, and after [t] passes both the distance
    of its values to the solution of Bellman's equation and the error it reports are of order
    beta^(t-2) 2V + 1e-8 (1 + beta) / (1 - beta)^2, the last term being due to the tolerance of policy evaluations. *)
Theorem C117_value_iteration :
  forall g u val exo s n_x beta v0 lb ub interp_x interp_v call_v node_x node_v minimize W,
    index_is_point exo call_v W ->
    (forall w i j S, (i < ex_n exo)%nat -> (j < dp_n (ex_dp exo) i)%nat -> nth 0 (interp_v w i j S) 0 = W w (dp_node (ex_dp exo) i j) S) ->
    (forall m s x v M S X V, val m s x v M S X V 0%nat = u m s x + beta * nth 0 V 0) ->
    (forall i, (i < ex_n exo)%nat -> dp_n (ex_dp exo) i = dp_n (ex_dp exo) 0) ->
    (forall c i n k, (i < ex_n exo)%nat -> (n < length s)%nat -> (k < n_x)%nat -> node_x c i n k = c i n k) ->
    (forall w i n, (i < ex_n exo)%nat -> (n < length s)%nat -> node_v w i n 0%nat = w i n 0%nat) ->
    value_rule_averages exo (length s) W ->
    (forall i, (i < ex_n exo)%nat -> probability (dp_n (ex_dp exo) i) (dp_weight (ex_dp exo) i)) ->
    0 <= beta < 1 ->
    maximises g u beta exo s W lb ub minimize ->
    (forall i n, (i < ex_n exo)%nat -> (n < length s)%nat ->
       length (lb (ex_node exo i) (nth n s [])) = n_x /\ length (ub (ex_node exo i) (nth n s [])) = n_x) ->
    forall x0 B V, length x0 = n_x ->
    (forall i n y, (i < ex_n exo)%nat -> (n < length s)%nat ->
       in_box (combine (lb (ex_node exo i) (nth n s [])) (ub (ex_node exo i) (nth n s []))) y \/ y = x0 ->
       Rabs (u (ex_node exo i) (nth n s []) y) <= B) ->
    B <= (1 - beta) * V -> Rabs v0 <= V -> beta ^ 1999 * (2 * V) <= 1 / 100000000 ->
    (0 < ex_n exo * length s * n_x)%nat ->
    forall vs, bellman_solution g u beta exo s W lb ub vs ->
    forall tol maxit, (0 < maxit)%nat ->
    exists r, value_iteration g u val exo s n_x beta v0 lb ub interp_x interp_v call_v node_x node_v minimize tol maxit x0 = Ok r /\
      let gap := beta ^ (vi_iterations r - 2) * (2 * V) + 1 / 100000000 * (1 + beta) / (1 - beta) / (1 - beta) in
      (forall i n, (i < ex_n exo)%nat -> (n < length s)%nat -> Rabs (vi_values r i n - vs i n 0%nat) <= beta * gap) /\
      vi_v_err r <= (1 + beta) * gap.
Proof. exact howard. Qed.
Print Assumptions C117_value_iteration.

(** The same run: B = 5e-7, V = 1e-6. *)
Example C117_example : forall tol maxit, (0 < maxit)%nat -> exists r,
  value_iteration (fun _ s _ _ => s) tiny_u tiny_val one_exo [[0%R]] 1 (1/2) 0 tiny_lb tiny_ub const_ip const_ip
    (fun w j _ => w j 0%nat 0%nat) (fun x => x) (fun x => x) top tol maxit [0] = Ok r /\
  Rabs (vi_values r 0%nat 0%nat - 1 / 1000000) <= 1 / 2 * ((1 / 2) ^ (vi_iterations r - 2) * (2 / 1000000) + 6 / 100000000).
Proof.
  intros tol maxit Hm. set (W := fun (w : tensor) (_ _ : list R) => w 0%nat 0%nat 0%nat).
  assert (HB : bellman_solution (fun _ s _ _ => s) tiny_u (1 / 2) one_exo [[0%R]] W tiny_lb tiny_ub (fun _ _ _ => 1 / 1000000)).
  { intros i n Hi Hn box J. subst box J. unfold objective_at, bellman, W, tiny_u, tiny_lb, tiny_ub, in_box. cbn. split.
    - exists [5 / 10000000]. split; [constructor; [cbn; lra|constructor]|cbn; lra].
    - intros y Hy. inversion Hy as [|? y0 ? l Hy0 Hl]; subst. cbn in Hy0 |- *. lra. }
  assert (HM : maximises (fun _ s _ _ => s) tiny_u (1 / 2) one_exo [[0%R]] W tiny_lb tiny_ub top).
  { intros w i n Hi Hn. cbv zeta. intros f x Hf. unfold in_box, tiny_lb, tiny_ub, top. cbn [combine map snd]. split.
    - constructor; [|constructor]. cbn. lra.
    - intros y Hy. inversion Hy as [|? y0 ? l Hy0 Hl]; subst. cbn in Hy0. inversion Hl; subst. unfold bellman, tiny_u. cbn. lra. }
  destruct (C117_value_iteration (fun _ s _ _ => s) tiny_u tiny_val one_exo [[0%R]] 1 (1/2) 0 tiny_lb tiny_ub const_ip const_ip
    (fun w j _ => w j 0%nat 0%nat) (fun x => x) (fun x => x) top W) with (x0 := [0]) (B := 5 / 10000000) (V := 1 / 1000000)
    (vs := (fun _ _ _ => 1 / 1000000) : tensor) (tol := tol) (maxit := maxit) as (r & H1 & H2 & _); try assumption; try reflexivity.
  - intros w i j S Hi Hj. cbn in Hj. assert (j = 0%nat) as -> by lia. reflexivity.
  - intros w i j S Hi Hj. cbn in Hi. assert (i = 0%nat) as -> by lia. reflexivity.
  - intros m s x v M S X V. unfold tiny_val, tiny_u. destruct V; cbn; lra.
  - intros i j S Hi Hj. unfold W. split; [|reflexivity]. intros w w' c H. apply H; cbn; lia.
  - intros i Hi. split; [intros j Hj; cbn; lra|cbn; lra].
  - lra.
  - intros i n Hi Hn. split; reflexivity.
  - intros i n y Hi Hn [Hy| ->]; [|unfold tiny_u; cbn; rewrite Rabs_R0; lra].
    unfold in_box, tiny_lb, tiny_ub in Hy. cbn [combine] in Hy. inversion Hy as [|? y0 ? l Hy0 Hl]; subst. cbn in Hy0 |- *. unfold tiny_u. cbn.
    apply Rabs_le. lra.
  - lra.
  - rewrite Rabs_R0. lra.
  - change 1999%nat with (8 + 1991)%nat. rewrite pow_add. set (p := (1 / 2) ^ 1991).
    assert (0 <= p <= 1) by (unfold p; split; [apply pow_le; lra|rewrite <- (pow1 1991); apply pow_incr; lra]). cbn [pow]. lra.
  - cbn. lia.
  - exists r. split; [exact H1|]. specialize (H2 0%nat 0%nat ltac:(cbn; lia) ltac:(cbn; lia)). cbv beta in H2. lra.
Qed.
