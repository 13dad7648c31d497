(** C156: what [egm], [evaluate_policy] and [value_iteration] print. *)
From Coq Require Import Reals List Arith Lia Lra.
From Verif.Base Require Import Prelude Arrays Sums Norms Ext.
From Verif.Proofs Require Import TimeIterationProofs ImprovedTimeIterationProofs ValueIterationProofs EgmProofs VerboseAlgosProofs.
From Verif.Model Require Import Discretization Grids Distributions Processes DecisionRule TimeIteration
  ImprovedTimeIteration ValueIteration Egm Verbose VerboseAlgos.
From Verif.Spec Require Import VerboseAlgos.
Import ListNotations.
Open Scope R_scope.

(** The lines of a run of egm.  With [verbose] there is one row per iteration, numbered from zero; the last row shows the
    error returned, the rows before it errors that are not below the tolerance, and the first two rows always show 1.
    Without [verbose] there is no row.  In both cases, one bare line is printed for every iteration, exogenous node and
    integration node, in that order.  Printing does not change the result.  The row [k] shows the error returned by a run
    limited to [k + 1] iterations. *)
Theorem C156_egm : forall exo is_iid s a N_a n_h h gt tau atau lb ub dr0 el nan verbose tol maxit lines r,
    egm exo is_iid s a N_a n_h h gt tau atau lb ub dr0 el nan true tol maxit = Ok r ->
    fst (egm_log exo is_iid s a N_a n_h h gt tau atau lb ub dr0 el nan verbose tol maxit 0 (fun _ _ => 0) (fun _ _ => 0)) = lines ->
    snd (egm_log exo is_iid s a N_a n_h h gt tau atau lb ub dr0 el nan verbose tol maxit 0 (fun _ _ => 0) (fun _ _ => 0)) = Ok r /\
    bare_only lines = visits (ex_n exo) (dp_n (ex_dp exo)) 0 (S (egm_it r)) /\
    exists etas, length etas = S (egm_it r) /\
      rows_only lines = (if verbose then combine (seq 0 (S (egm_it r))) etas else []) /\
      nth (egm_it r) etas 0 = egm_eta r /\
      (forall k, (k < egm_it r)%nat -> tol <= nth k etas 0) /\
      (forall k, (k <= 1)%nat -> (k <= egm_it r)%nat -> nth k etas 0 = 1) /\
      (forall k, (k <= egm_it r)%nat -> exists o,
         egm exo is_iid s a N_a n_h h gt tau atau lb ub dr0 el nan true tol (S k) = Ok o /\ egm_it o = k /\ egm_eta o = nth k etas 0).
Proof. exact egm_prints. Qed.
Print Assumptions C156_egm.

(** With verbose=False, egm should print nothing.  It prints lines in every iteration, for every node that has an
    integration node. *)
Theorem C156_egm_silent_refuted : forall exo is_iid s a N_a n_h h gt tau atau lb ub dr0 el nan tol maxit r i,
    egm exo is_iid s a N_a n_h h gt tau atau lb ub dr0 el nan true tol maxit = Ok r ->
    (i < ex_n exo)%nat -> (0 < dp_n (ex_dp exo) i)%nat ->
    forall it, (it <= egm_it r)%nat ->
    In (Bare it i 0) (fst (egm_log exo is_iid s a N_a n_h h gt tau atau lb ub dr0 el nan false tol maxit 0 (fun _ _ => 0) (fun _ _ => 0))).
Proof. exact egm_never_silent. Qed.
Print Assumptions C156_egm_silent_refuted.

(** The table of evaluate_policy: one row per step, numbered from one, with the error of the step and its ratio to the
    error of the row above.  The result is that of the silent run; the last row shows the error returned; every row but
    the last shows an error above the tolerance, and a run that stops before [maxit] has an error within it.
    The k-th row shows the error returned by a run limited to k steps. *)
Theorem C156_evaluate : forall g val exo s n_x n_v ip x dr tol maxit v0 r,
    evaluate_policy g val exo s n_x n_v ip x dr tol maxit v0 = Ok r ->
    snd (ep_rows g val exo s n_x n_v ip x dr tol maxit 0 10 None v0 None) = r /\
    exists errs, fst (ep_rows g val exo s n_x n_v ip x dr tol maxit 0 10 None v0 None) = error_rows 0 None errs /\
      length errs = ep_iterations r /\ ep_err r = last errs 10 /\ Forall (fun e => tol < e) (removelast (10 :: errs)) /\
      (ep_iterations r <= maxit)%nat /\ ((ep_iterations r < maxit)%nat -> ep_err r <= tol) /\
      (forall k, (k < ep_iterations r)%nat -> exists o,
         evaluate_policy g val exo s n_x n_v ip x dr tol (S k) v0 = Ok o /\ ep_err o = nth k errs 0).
Proof. exact evaluate_prints. Qed.
Print Assumptions C156_evaluate.

(** The table of value_iteration: one row per pass, numbered from one, with the changes of values and controls, their
    ratios to those of the row above, and the number of evaluation steps (between 1 and 2000).  The last row shows the
    errors returned.  In every row before, one of the two changes is above its tolerance.  The row of a pass shows the
    errors returned by a run limited to that number of passes, and the number of steps taken to evaluate the controls of
    the pass before (the calibrated ones at first). *)
Theorem C156_value_iteration :
  forall g felicity val exo s n_x beta v0 lb ub interp_x interp_v call_v node_x node_v minimize tol maxit x0 r,
    value_iteration g felicity val exo s n_x beta v0 lb ub interp_x interp_v call_v node_x node_v minimize tol maxit x0 = Ok r ->
    exists ps,
      fst (vi_rows g felicity val exo s n_x beta v0 lb ub interp_x interp_v call_v node_x node_v minimize tol maxit
             0 100 100 0 0 (fun _ _ k => nth k x0 0) (fun _ _ _ => 0) None) = pass_rows 0 None None ps /\
      length ps = vi_iterations r /\ (vi_iterations r <= maxit)%nat /\
      (vi_v_err r, vi_x_err r) = last (map (fun p => (p_v p, p_x p)) ps) (100, 100) /\
      Forall (fun e => tol < fst e \/ 1 / 100000 < snd e) (removelast (map (fun p => (p_v p, p_x p)) ps)) /\
      ((vi_iterations r < maxit)%nat -> vi_v_err r <= tol /\ vi_x_err r <= 1 / 100000) /\
      Forall (fun p => 1 <= p_eval p <= 2000)%nat ps /\
      forall k, (k < vi_iterations r)%nat ->
        exists o c start e,
          value_iteration g felicity val exo s n_x beta v0 lb ub interp_x interp_v call_v node_x node_v minimize tol (S k) x0 = Ok o /\
          vi_v_err o = p_v (nth k ps (Pass 0 0 0)) /\ vi_x_err o = p_x (nth k ps (Pass 0 0 0)) /\
          (k = O -> c = fun _ _ j => nth j x0 0) /\
          ((0 < k)%nat -> exists o',
             value_iteration g felicity val exo s n_x beta v0 lb ub interp_x interp_v call_v node_x node_v minimize tol k x0 = Ok o' /\ vi_controls o' = c) /\
          evaluate_policy g val exo s n_x 1 interp_v (node_x c) (interp_x c) ep_tol ep_maxit start = Ok e /\
          ep_iterations e = p_eval (nth k ps (Pass 0 0 0)).
Proof. exact value_iteration_prints. Qed.
Print Assumptions C156_value_iteration.

(** Runs that meet the hypotheses: egm in three iterations, at a node with an integration node; an evaluation; a value
    iteration. *)
Example C156_egm_example :
  forall nan,
  (exists r, egm one_exo false [0] (fun p => INR p) 2 1 (fun _ _ X _ => X) (fun _ a _ => a) (fun _ a _ => a / 2) (fun _ a x => a + x)
                (fun _ _ => Fin 0) (fun _ _ => Fin 1) (fun _ _ => 5) (fun _ _ x => x) nan true (1 / 1000000) 10 = Ok r /\
    egm_converged r = true /\ egm_it r = 2%nat) /\
  (0 < ex_n one_exo)%nat /\ (0 < dp_n (ex_dp one_exo) 0)%nat.
Proof. intros nan. split; [exact (egm_small nan)|]. cbn. lia. Qed.

Example C156_evaluate_example :
  exists e, evaluate_policy (fun _ s _ _ => s) tiny_val one_exo [[0%R]] 1 1 const_ip (fun _ _ _ => 0) (fun _ _ S => S) ep_tol 5
              (fun _ _ k => nth k [0] 0) = Ok e.
Proof.
  destruct (tiny_eval 5 (fun _ _ _ => 0) (fun _ _ S => S) ltac:(lia) eq_refl) as (e & H & _). exists e. exact H.
Qed.

Example C156_value_iteration_example : exists r, tiny_run 2 = Ok r.
Proof. destruct (flags_refuted 2 (le_n 2)) as (r & H & _). exists r. exact H. Qed.
