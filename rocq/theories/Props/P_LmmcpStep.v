(** The steps of the Levenberg-Marquardt complementarity solver (dolo/numeric/extern/lmmcp.py): C118. *)
From Coq Require Import Reals Arith.
From Verif.Base Require Import Prelude Sums Ext.
From Verif.Model Require Import Lmmcp LmmcpDirection.
From Verif.Spec Require Import LeastSquares LmmcpState.
From Verif.Proofs Require Import LmmcpFinal LmmcpDirectionProofs.
Open Scope R_scope.

(** C118. For every Jacobian J and residual phi, and any least-squares routine: the derivative of the merit function
    along the computed direction d is - |J d|^2 - mu |d|^2, so that d is a descent direction. *)
Theorem C118_slope : forall n ill lstsq,
    (forall rows A b d, lstsq rows A b = Ok d -> least_squares rows n A b d) ->
    forall pre k J phi d, lm_direction n ill lstsq pre k J phi = Ok d ->
    let mu := if Nat.ltb n 100 then lm_mu ill pre k J else 0 in
    rsum n (fun j => DPsi_of n J phi j * d j) =
      - (rsum (2 * n) (fun r => rsum n (fun j => J r j * d j) ^ 2) + mu * rsum n (fun j => d j ^ 2)).
Proof. exact direction_slope. Qed.
Print Assumptions C118_slope.

Theorem C118_descent : forall n ill lstsq,
    (forall rows A b d, lstsq rows A b = Ok d -> least_squares rows n A b d) ->
    forall pre k J phi d, lm_direction n ill lstsq pre k J phi = Ok d ->
    rsum n (fun j => DPsi_of n J phi j * d j) <= 0.
Proof. exact direction_descent. Qed.
Print Assumptions C118_descent.

(** With fewer than 100 variables, strictly unless the direction is zero. *)
Theorem C118_strict : forall n ill lstsq,
    (forall rows A b d, lstsq rows A b = Ok d -> least_squares rows n A b d) ->
    forall pre k J phi d, (n < 100)%nat -> lm_direction n ill lstsq pre k J phi = Ok d ->
    (exists j, (j < n)%nat /\ d j <> 0) -> rsum n (fun j => DPsi_of n J phi j * d j) < 0.
Proof. exact direction_strict. Qed.
Print Assumptions C118_strict.

(** An iteration of the main phase, for any direction: it moves along d by the largest step 1, 0.55, 0.55^2... at
    which the merit is below the reference value plus 0.0001 times the predicted change, or gives up below 1e-12; it may then go back
    to the best point so far, after 20 iterations without progress. *)
Theorem C118_line_search : forall nan o n F DF lb ub lsq s s',
  main_step nan o n F DF lb ub lsq s = Ok s' ->
  exists d k, lsq false (m_k s) (m_dphi s) (m_phi s) = Ok d /\
    let t := (55 / 100) ^ k in
    let slope := rsum n (fun j => m_dpsi s j * d j) in
    let x' := fun i => m_x s i + t * d i in
    (m_x s' = x' \/ (m_x s' = b_x s /\ (b_k s + 20 < S (m_k s))%nat)) /\
    (Psi_of n (Phi nan o n F lb ub x') <= m_max s + 1 / 10000 * slope * t \/ t <= 1 / 1000000000000) /\
    forall m, (m < k)%nat -> let u := (55 / 100) ^ m in
      m_max s + 1 / 10000 * slope * u < Psi_of n (Phi nan o n F lb ub (fun i => m_x s i + u * d i)).
Proof. exact lmmcp_step. Qed.
Print Assumptions C118_line_search.

(** With least-squares directions the merit never exceeds the reference value, unless the search gave up. *)
Theorem C118_merit : forall nan o n F DF lb ub ill lstsq,
    (forall rows A b d, lstsq rows A b = Ok d -> least_squares rows n A b d) ->
    forall s s', consistent nan o n F DF lb ub s -> b_psi s <= m_max s ->
    main_step nan o n F DF lb ub (lm_direction n ill lstsq) s = Ok s' ->
    m_psi s' <= m_max s \/
    (exists d t, lm_direction n ill lstsq false (m_k s) (m_dphi s) (m_phi s) = Ok d /\ 0 < t <= 1 / 1000000000000 /\
       m_x s' = fun i => m_x s i + t * d i).
Proof. exact step_descends. Qed.
Print Assumptions C118_merit.

(** The values stored with the current and the best point belong to them throughout the loop, and the best merit never
    increases. *)
Theorem C118_best : forall nan o n F DF lb ub lsq fuel s s',
  consistent nan o n F DF lb ub s -> main_loop nan o n F DF lb ub lsq fuel s = Ok s' ->
  consistent nan o n F DF lb ub s' /\ b_psi s' <= b_psi s.
Proof. exact consistent_loop. Qed.
Print Assumptions C118_best.

(** There is a least-squares routine (here for one unknown), so the hypotheses can be met. *)
Example C118_example :
  (forall rows A b d, lstsq_one rows A b = Ok d -> least_squares rows 1 A b d) /\
  forall ill pre k J phi, exists d, lm_direction 1 ill lstsq_one pre k J phi = Ok d.
Proof. split; [exact lstsq_one_ok|]. intros; eexists; reflexivity. Qed.
