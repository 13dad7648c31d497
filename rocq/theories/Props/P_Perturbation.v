(** Property theorems C46-C48, C100, C101: first-order perturbation. *)
From Coq Require Import String Reals List Arith Lia Lra.
From Verif.Base Require Import Prelude Ext Sums.
From Verif.Spec Require Import LinearAlgebra Perturbation.
From Verif.Model Require Import LinearSolve DecisionRule Perturbation.
From Verif.Proofs Require Import MatrixAlgebra PerturbationProofs PerturbationFinal.
Import ListNotations.
Open Scope R_scope.

(** C46.  The returned rule solves the linearised model: for every number of states and controls, every
    derivatives, every decomposition of the pencil that is block triangular at the number of states. *)
Theorem C46_solves :
  forall qz solve n m d C ev SS TT QQ ZZ,
    exact_solver solve ->
    approximate_1st_order qz solve n m d = Ok (C, ev) ->
    qz (n + m)%nat (lead n (f_S d) (f_X d)) (lag n (g_s d) (g_x d) (f_s d) (f_x d)) (1 - 1 / 10 ^ 8) = Ok (SS, TT, QQ, ZZ) ->
    generalized_schur (n + m) (lead n (f_S d) (f_X d)) (lag n (g_s d) (g_x d) (f_s d) (f_x d)) SS TT QQ ZZ ->
    splits_at n (n + m) SS -> splits_at n (n + m) TT -> ~ singular n SS ->
    solves_linear_model n m (g_s d) (g_x d) (f_s d) (f_x d) (f_S d) (f_X d) C.
Proof.
  exact (fun qz solve n m d C ev SS TT QQ ZZ h1 h2 h3 h4 h5 h6 h7 =>
           proj1 (approximate_solves qz solve n m d C ev SS TT QQ ZZ h1 h2 h3 h4 h5 h6 h7)).
Qed.
Print Assumptions C46_solves.

(** C100.  Under the Blanchard-Kahn conditions the returned rule solves the model, the states converge
    to the steady state from everywhere, and no other rule does so without explosive paths. *)
Theorem C100_blanchard_kahn :
  forall qz solve n m d C ev SS TT QQ ZZ,
    exact_solver solve ->
    approximate_1st_order qz solve n m d = Ok (C, ev) ->
    qz (n + m)%nat (lead n (f_S d) (f_X d)) (lag n (g_s d) (g_x d) (f_s d) (f_x d)) (1 - 1 / 10 ^ 8) = Ok (SS, TT, QQ, ZZ) ->
    ordered_schur (n + m) (1 - 1 / 10 ^ 8) (lead n (f_S d) (f_X d)) (lag n (g_s d) (g_x d) (f_s d) (f_x d)) SS TT QQ ZZ ->
    blanchard_kahn n m SS TT ->
    solves_linear_model n m (g_s d) (g_x d) (f_s d) (f_x d) (f_S d) (f_X d) C /\
    converges n (motion m (g_s d) (g_x d) C) /\
    (forall D, solves_linear_model n m (g_s d) (g_x d) (f_s d) (f_x d) (f_S d) (f_X d) D ->
               nonexplosive n (motion m (g_s d) (g_x d) D) ->
               forall i j, (i < m)%nat -> (j < n)%nat -> D i j = C i j).
Proof. exact blanchard_kahn_case. Qed.
Print Assumptions C100_blanchard_kahn.

(** s' = s/2, x' = 4x, solved by Gaussian elimination. *)
Example C100_example : exact_solver gauss_solve /\ exists C ev,
    approximate_1st_order (fun _ _ _ _ => Ok (eye, ex_diag2 (1/2) 4, eye, eye)) gauss_solve 1 1 ex_saddle = Ok (C, ev) /\
    ordered_schur 2 (1 - 1 / 10 ^ 8) (lead 1 (f_S ex_saddle) (f_X ex_saddle))
      (lag 1 (g_s ex_saddle) (g_x ex_saddle) (f_s ex_saddle) (f_x ex_saddle)) eye (ex_diag2 (1/2) 4) eye eye /\
    blanchard_kahn 1 1 eye (ex_diag2 (1/2) 4) /\ ~ singular 1 eye.
Proof. exact (conj gauss_exact saddle_run). Qed.

(** C47, proved part.  A rule is returned only if one of the first n roots is not unstable and one of
    the last m is unstable; in particular the conditions are checked exactly with one state and one
    control.  Missing: all of the first n, all of the last m. *)
Theorem C47_returned_partial :
  forall qz solve n m d C ev SS TT QQ ZZ,
    approximate_1st_order qz solve n m d = Ok (C, ev) ->
    qz (n + m)%nat (lead n (f_S d) (f_X d)) (lag n (g_s d) (g_x d) (f_s d) (f_x d)) (1 - 1 / 10 ^ 8) = Ok (SS, TT, QQ, ZZ) ->
    (exists i, (i < n)%nat /\ ~ unstable_root SS TT i) /\
    (exists i, (n <= i)%nat /\ (i < n + m)%nat /\ unstable_root SS TT i).
Proof. exact returned_roots. Qed.
Print Assumptions C47_returned_partial.

(** C47 refuted: a model with an explosive state, for which the rule is returned. *)
Theorem C47_explosive_refuted :
  ordered_schur 3 (1 - 1 / 10 ^ 8) (lead 2 (f_S ex_explosive) (f_X ex_explosive))
    (lag 2 (g_s ex_explosive) (g_x ex_explosive) (f_s ex_explosive) (f_x ex_explosive)) eye ex_lag eye eye /\
  exists C ev,
    approximate_1st_order (fun _ _ _ _ => Ok (eye, ex_lag, eye, eye)) gauss_solve 2 1 ex_explosive = Ok (C, ev) /\
    ~ nonexplosive 2 (motion 1 (g_s ex_explosive) (g_x ex_explosive) C).
Proof. exact (conj explosive_schur explosive_run). Qed.
Print Assumptions C47_explosive_refuted.

(** C47 refuted: a model with several stable solutions, one of which is returned. *)
Theorem C47_indeterminate_refuted :
  ordered_schur 3 (1 - 1 / 10 ^ 8) (lead 1 (f_S ex_indet) (f_X ex_indet))
    (lag 1 (g_s ex_indet) (g_x ex_indet) (f_s ex_indet) (f_x ex_indet)) eye ex_T ex_rot ex_rot /\
  exists C ev D,
    approximate_1st_order (fun _ _ _ _ => Ok (eye, ex_T, ex_rot, ex_rot)) gauss_solve 1 2 ex_indet = Ok (C, ev) /\
    solves_linear_model 1 2 (g_s ex_indet) (g_x ex_indet) (f_s ex_indet) (f_x ex_indet) (f_S ex_indet) (f_X ex_indet) D /\
    converges 1 (motion 2 (g_s ex_indet) (g_x ex_indet) C) /\
    converges 1 (motion 2 (g_s ex_indet) (g_x ex_indet) D) /\
    D 0%nat 0%nat <> C 0%nat 0%nat.
Proof. exact (conj indet_schur indet_run). Qed.
Print Assumptions C47_indeterminate_refuted.

(** C48.  Values, row by row: both arguments 2-d; both 1-d; one exogenous value for all states. *)
Theorem C48_rows :
  forall t Cm (m s : list (list R)), bt_Cm t = Some Cm -> length m = length s ->
    exists out, bt_eval_ms t (Some (P2 m)) (P2 s) = Ok (P2 out) /\ length out = length s /\
      forall r k, (r < length s)%nat -> (k < length (bt_x t))%nat ->
        nth k (nth r out []) 0 = expansion Cm (bt_Cs t) (bt_m t) (bt_s t) (bt_x t) (nth r m []) (nth r s []) k.
Proof. exact bt_rows_value. Qed.
Print Assumptions C48_rows.

Theorem C48_vectors :
  forall t Cm (m s : list R), bt_Cm t = Some Cm ->
    exists out, bt_eval_ms t (Some (P1 m)) (P1 s) = Ok (P1 out) /\ length out = length (bt_x t) /\
      forall k, (k < length (bt_x t))%nat ->
        nth k out 0 = expansion Cm (bt_Cs t) (bt_m t) (bt_s t) (bt_x t) m s k.
Proof. exact bt_vectors_value. Qed.
Print Assumptions C48_vectors.

Theorem C48_one_exogenous :
  forall t Cm (m : list R) (s : list (list R)), bt_Cm t = Some Cm ->
    exists out, bt_eval_ms t (Some (P1 m)) (P2 s) = Ok (P2 out) /\ length out = length s /\
      forall r k, (r < length s)%nat -> (k < length (bt_x t))%nat ->
        nth k (nth r out []) 0 = expansion Cm (bt_Cs t) (bt_m t) (bt_s t) (bt_x t) m (nth r s []) k.
Proof. exact bt_one_m_value. Qed.
Print Assumptions C48_one_exogenous.

(** C48.  For iid shocks only the states matter. *)
Theorem C48_iid :
  forall t (m s : list (list R)), bt_Cm t = None ->
    bt_eval_ms t (Some (P2 m)) (P2 s) = bt_eval_s t (P2 s) /\
    exists out, bt_eval_s t (P2 s) = Ok (P2 out) /\ length out = length s /\
      forall r k, (r < length s)%nat -> (k < length (bt_x t))%nat ->
        nth k (nth r out []) 0 = nth k (bt_x t) 0 + rsum (length (bt_s t)) (fun j => bt_Cs t k j * (nth j (nth r s []) 0 - nth j (bt_s t) 0)).
Proof. exact bt_iid_value. Qed.
Print Assumptions C48_iid.

(** C48.  At the expansion point: the steady-state controls. *)
Theorem C48_expansion_point :
  forall Cm Cs (m0 s0 x0 : list R) k, expansion Cm Cs m0 s0 x0 m0 s0 k = nth k x0 0.
Proof. exact expansion_point. Qed.
Print Assumptions C48_expansion_point.

(** C48.  A rule that depends on exogenous values cannot be evaluated on the states alone. *)
Theorem C48_states_alone :
  forall t Cm s, bt_Cm t = Some Cm -> exists e, bt_eval_s t s = Err e.
Proof. exact bt_needs_m. Qed.
Print Assumptions C48_states_alone.

Example C48_example :
  expansion (fun _ _ => 2) (fun _ _ => 3) [1] [1] [10] [2] [4] 0 = 21.
Proof. unfold expansion. cbn. lra. Qed.

(** C101.  What perturb returns for iid shocks: a rule around the given point with the matrix of
    approximate_1st_order. *)
Theorem C101_iid :
  forall qz solve g_m raw (m s x : list R) order p,
    perturb qz solve ShockIID g_m raw m s x order = Ok p ->
    (order <= 1)%nat /\ pe_m p = m /\ pe_s p = s /\ pe_x p = x /\ pe_Cm p = None /\ pe_flags p = (true, true, true) /\
    exists C, approximate_1st_order qz solve (length s) (length x)
                (let '(gs, gx, fs, fx, fS, fX) := raw in Deriv gs gx g_m fs fx fS fX) = Ok (C, pe_eigvals p) /\
              pe_Cs p = C.
Proof. exact perturb_iid. Qed.
Print Assumptions C101_iid.

(** C101 refuted: no other process can be used (VAR1: AttributeError, AR1: Exception). *)
Theorem C101_autocorrelated_refuted :
  forall qz solve k g_m raw (m s x : list R) order, k <> ShockIID ->
    exists e, perturb qz solve k g_m raw m s x order = Err e.
Proof. exact perturb_other. Qed.
Print Assumptions C101_autocorrelated_refuted.

Example C101_example : exists p,
  perturb (fun _ _ _ _ => Ok (eye, ex_diag2 (1/2) 4, eye, eye)) gauss_solve ShockIID ex_zero
    (g_s ex_saddle, g_x ex_saddle, f_s ex_saddle, f_x ex_saddle, f_S ex_saddle, f_X ex_saddle) [0] [1] [2] 1 = Ok p.
Proof.
  destruct saddle_run as (C & ev & E & _). unfold perturb. cbn [Nat.ltb Nat.leb get_derivatives bind length].
  change (approximate_1st_order (fun _ _ _ _ => Ok (eye, ex_diag2 (1/2) 4, eye, eye)) gauss_solve 1 1 ex_saddle = Ok (C, ev)) in E.
  unfold ex_saddle in E |- *. cbn [g_s g_x f_s f_x f_S f_X]. rewrite E. eexists. reflexivity.
Qed.
