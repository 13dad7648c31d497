(** Properties of higher-order perturbation (perturbations_higher_order.py). *)
From Coq Require Import Reals List Arith Lia Lra.
From Verif.Base Require Import Prelude Ext Sums Arrays.
From Verif.Spec Require Import LinearAlgebra Perturbation HigherOrder.
From Verif.Model Require Import DecisionRule Perturbation.
From Verif.Base Require Import Nda.
From Verif.Model Require Import LinearSolve Tensor MatrixEquations Taylor HigherOrder.
From Verif.Proofs Require Import PerturbationFinal HigherOrderFinal HigherOrderThird HigherOrderOrder4 HigherOrderErrors HigherOrderExamples HigherOrderTwoStates.
Import ListNotations.
Open Scope R_scope.

(** C108.  Order one: the matrix returned solves the linearised model. *)
Theorem C108_order1 :
  forall qz solve, exact_solver solve ->
  forall n_s n_x n_e f0 g0 f1 g1 sigma sol,
    schur_routine n_s n_x f1 g1 qz ->
    shape f1 = [n_x; (n_s + n_x + (n_s + n_x))%nat] -> shape g1 = [n_s; (n_s + n_x + n_e)%nat] ->
    state_perturb qz solve [f0; f1] [g0; g1] sigma = Ok sol ->
    exists X_s, sol = Order1 X_s /\ shape X_s = [n_x; n_s] /\
      solves_linear_model n_s n_x (coef2 g1) (fun i j => coef2 g1 i (n_s + j)%nat)
        (coef2 f1) (fun i j => coef2 f1 i (n_s + j)%nat)
        (fun i j => coef2 f1 i (n_s + n_x + j)%nat) (fun i j => coef2 f1 i (n_s + n_x + n_s + j)%nat)
        (coef2 X_s).
Proof. exact order1_solves. Qed.
Print Assumptions C108_order1.

(** C108.  Order two: for every model f, g with the derivatives given and every shocks with mean zero and
    the covariance given, the residuals left by the rule returned are of order three in the state and the
    scale of the shocks. *)
Theorem C108_order2 :
  forall qz solve, exact_solver solve ->
  forall n_s n_x n_e (f g : vector -> vector) f0 g0 f1 g1 f2 g2 sigma sol M p eps,
    schur_routine n_s n_x f1 g1 qz ->
    shape f1 = [n_x; (n_s + n_x + (n_s + n_x))%nat] ->
    shape f2 = [n_x; (n_s + n_x + (n_s + n_x))%nat; (n_s + n_x + (n_s + n_x))%nat] ->
    shape g1 = [n_s; (n_s + n_x + n_e)%nat] -> shape g2 = [n_s; (n_s + n_x + n_e)%nat; (n_s + n_x + n_e)%nat] ->
    shape sigma = [n_e; n_e] ->
    expands2 (n_s + n_x + (n_s + n_x)) n_x f (coef2 f1) (coef3 f2) ->
    expands2 (n_s + n_x + n_e) n_s g (coef2 g1) (coef3 g2) -> symmetric2 n_s (n_s + n_x + n_e) (coef3 g2) ->
    shocks M n_e p eps (coef2 sigma) ->
    state_perturb qz solve [f0; f1; f2] [g0; g1; g2] sigma = Ok sol ->
    exists X_s X_ss X_tt, sol = Order2 X_s X_ss X_tt /\
      shape X_s = [n_x; n_s] /\ shape X_ss = [n_x; n_s; n_s] /\ shape X_tt = [n_x] /\
      accurate 3 n_s n_x M p eps f g (rule2 n_s (coef2 X_s) (coef3 X_ss) (vec_of X_tt)).
Proof. exact order2_accurate. Qed.
Print Assumptions C108_order2.

(** C108.  The decision rule built from the solution is the steady-state control plus the rule of order two
    at the deviation of the state, the shocks having scale one. *)
Theorem C108_rule :
  forall s x X_s X_ss X_tt t,
    shape X_s = [length x; length s] -> shape X_ss = [length x; length s; length s] -> shape X_tt = [length x] ->
    perturb_rule s x (Order2 X_s X_ss X_tt) = Ok t ->
    forall q, length q = length s -> exists out, te_eval1 t q = Ok out /\ length out = length x /\
      forall n, (n < length x)%nat ->
        nth n out 0 = nth n x 0 + rule2 (length s) (coef2 X_s) (coef3 X_ss) (vec_of X_tt) (fun i => nth i q 0 - nth i s 0) 1 n.
Proof. exact order2_rule. Qed.
Print Assumptions C108_rule.

(** s' = s/2 + s^2/2 + eps, 4 x - x' + s'^2 = 0, shocks of value 1 and -1: all hypotheses of C108_order2
    are met. *)
Example C108_example :
  exact_solver gauss_solve /\ schur_routine 1 1 ex_f1 ex_g1 ex_qz /\
  expands2 4 1 ex_f (coef2 ex_f1) (coef3 ex_f2) /\ expands2 3 1 ex_g (coef2 ex_g1) (coef3 ex_g2) /\
  symmetric2 1 3 (coef3 ex_g2) /\
  shocks 2 1 (fun _ => 1/2) (fun k _ => if Nat.eqb k 0 then 1 else -1) (coef2 ex_sigma) /\
  exists sol, state_perturb ex_qz gauss_solve [ex_sigma; ex_f1; ex_f2] [ex_sigma; ex_g1; ex_g2] ex_sigma = Ok sol.
Proof.
  split; [exact gauss_exact|]. split; [exact ex_schur|]. split; [exact ex_f_expands|].
  split; [exact ex_g_expands|]. split; [exact ex_g_symmetric|]. split; [exact ex_shocks|exact ex_order2].
Qed.

(** C108.  On derivatives of matching shapes, whatever the numbers of states, controls and shocks, the only
    errors of the second order are those of the first order and those of the linear solver. *)
Theorem C108_raises :
  forall qz solve, exact_solver solve ->
  forall n_s n_x n_e f0 g0 f1 g1 f2 g2 sigma e,
    schur_routine n_s n_x f1 g1 qz ->
    shape f1 = [n_x; (n_s + n_x + (n_s + n_x))%nat] ->
    shape f2 = [n_x; (n_s + n_x + (n_s + n_x))%nat; (n_s + n_x + (n_s + n_x))%nat] ->
    shape g1 = [n_s; (n_s + n_x + n_e)%nat] -> shape g2 = [n_s; (n_s + n_x + n_e)%nat; (n_s + n_x + n_e)%nat] ->
    shape sigma = [n_e; n_e] ->
    state_perturb qz solve [f0; f1; f2] [g0; g1; g2] sigma = Err e ->
    state_perturb qz solve [f0; f1] [g0; g1] sigma = Err e \/ exists n A b, solve n A b = Err e.
Proof. exact order2_raises. Qed.
Print Assumptions C108_raises.

(** The model of C108_example with a solver that fails. *)
Example C108_raises_example :
  exact_solver failing_solve /\ schur_routine 1 1 ex_f1 ex_g1 ex_qz /\
  state_perturb ex_qz failing_solve [ex_sigma; ex_f1; ex_f2] [ex_sigma; ex_g1; ex_g2] ex_sigma = Err ExcLinAlg.
Proof. exact (conj failing_exact (conj ex_schur ex_raises)). Qed.

(** C109 (partial).  Order three: the terms of order two are those of order two, and the residuals are at
    least of order three.  What is missing is order four (see below). *)
Theorem C109_order3_partial :
  forall qz solve, exact_solver solve ->
  forall n_s n_x n_e (f g : vector -> vector) f0 g0 f1 g1 f2 g2 f3 g3 sigma sol M p eps,
    schur_routine n_s n_x f1 g1 qz ->
    shape f1 = [n_x; (n_s + n_x + (n_s + n_x))%nat] ->
    shape f2 = [n_x; (n_s + n_x + (n_s + n_x))%nat; (n_s + n_x + (n_s + n_x))%nat] ->
    shape g1 = [n_s; (n_s + n_x + n_e)%nat] -> shape g2 = [n_s; (n_s + n_x + n_e)%nat; (n_s + n_x + n_e)%nat] ->
    shape sigma = [n_e; n_e] ->
    expands2 (n_s + n_x + (n_s + n_x)) n_x f (coef2 f1) (coef3 f2) ->
    expands2 (n_s + n_x + n_e) n_s g (coef2 g1) (coef3 g2) -> symmetric2 n_s (n_s + n_x + n_e) (coef3 g2) ->
    shocks M n_e p eps (coef2 sigma) ->
    state_perturb qz solve [f0; f1; f2; f3] [g0; g1; g2; g3] sigma = Ok sol ->
    exists X_s X_ss X_sss X_tt X_stt, sol = Order3 X_s X_ss X_sss X_tt X_stt /\
      state_perturb qz solve [f0; f1; f2] [g0; g1; g2] sigma = Ok (Order2 X_s X_ss X_tt) /\
      accurate 3 n_s n_x M p eps f g (rule3 n_s (coef2 X_s) (coef3 X_ss) (coef4 X_sss) (vec_of X_tt) (coef2 X_stt)).
Proof. exact order3_accurate2. Qed.
Print Assumptions C109_order3_partial.

(** C109 refuted.  s' = s/2 + s x + eps, 4 x - x' + s^2 + 3/4 (s' - s/2) = 0, shocks of value 1 and -1 (so
    that third moments vanish): the third derivatives of f and g given to state_perturb are exact, it
    returns a solution of order three, and the residuals of this solution are not of order four. *)
Theorem C109_order3_refuted :
  exact_solver gauss_solve /\ schur_routine 1 1 b3_f1 b3_g1 b3_qz /\
  expands3 4 1 b3_f (coef2 b3_f1) (coef3 b3_f2) (coef4 b3_f3) /\
  expands3 3 1 b3_g (coef2 b3_g1) (coef3 b3_g2) (coef4 b3_g3) /\ symmetric2 1 3 (coef3 b3_g2) /\
  shocks 2 1 b3_p b3_eps (coef2 b3_sigma) /\
  exists sol X_s X_ss X_sss X_tt X_stt,
    state_perturb b3_qz gauss_solve [b3_sigma; b3_f1; b3_f2; b3_f3] [b3_sigma; b3_g1; b3_g2; b3_g3] b3_sigma = Ok sol /\
    sol = Order3 X_s X_ss X_sss X_tt X_stt /\
    ~ accurate 4 1 1 2 b3_p b3_eps b3_f b3_g (rule3 1 (coef2 X_s) (coef3 X_ss) (coef4 X_sss) (vec_of X_tt) (coef2 X_stt)).
Proof.
  exact (conj gauss_exact (conj b3_schur (conj b3_f_expands (conj b3_g_expands (conj b3_g_symmetric (conj b3_shocks order3_inaccurate)))))).
Qed.
Print Assumptions C109_order3_refuted.

(** The model of the refutation meets the hypotheses of C109_order3_partial. *)
Example C109_example : exists sol,
  state_perturb b3_qz gauss_solve [b3_sigma; b3_f1; b3_f2; b3_f3] [b3_sigma; b3_g1; b3_g2; b3_g3] b3_sigma = Ok sol.
Proof. destruct order3_inaccurate as (sol & _ & _ & _ & _ & _ & E & _). exists sol. exact E. Qed.

(** C109 (partial).  With one state, any number of controls and of shocks with zero third moments, and a
    transition in whose second derivatives state and controls do not interact, the residuals of the rule of
    order three are of order four.  What is missing: several states, and interaction of the state with the
    controls (both refuted). *)
Theorem C109_one_state_partial :
  forall qz solve, exact_solver solve ->
  forall n_x n_e (f g : vector -> vector) f0 g0 f1 g1 f2 g2 f3 g3 sigma sol M p eps,
    schur_routine 1 n_x f1 g1 qz ->
    shape f1 = [n_x; (1 + n_x + (1 + n_x))%nat] -> shape f2 = [n_x; (1 + n_x + (1 + n_x))%nat; (1 + n_x + (1 + n_x))%nat] ->
    shape f3 = [n_x; (1 + n_x + (1 + n_x))%nat; (1 + n_x + (1 + n_x))%nat; (1 + n_x + (1 + n_x))%nat] ->
    shape g1 = [1; 1 + n_x + n_e]%nat -> shape g2 = [1; 1 + n_x + n_e; 1 + n_x + n_e]%nat ->
    shape g3 = [1; 1 + n_x + n_e; 1 + n_x + n_e; 1 + n_x + n_e]%nat ->
    shape sigma = [n_e; n_e] ->
    expands3 (1 + n_x + (1 + n_x)) n_x f (coef2 f1) (coef3 f2) (coef4 f3) ->
    expands3 (1 + n_x + n_e) 1 g (coef2 g1) (coef3 g2) (coef4 g3) ->
    symmetric2 n_x (1 + n_x + (1 + n_x)) (coef3 f2) -> symmetric3 n_x (1 + n_x + (1 + n_x)) (coef4 f3) ->
    symmetric2 1 (1 + n_x + n_e) (coef3 g2) -> symmetric3 1 (1 + n_x + n_e) (coef4 g3) ->
    states_controls_separate 1 n_x (coef3 g2) ->
    shocks M n_e p eps (coef2 sigma) -> unskewed M n_e p eps ->
    state_perturb qz solve [f0; f1; f2; f3] [g0; g1; g2; g3] sigma = Ok sol ->
    exists X_s X_ss X_sss X_tt X_stt, sol = Order3 X_s X_ss X_sss X_tt X_stt /\
      accurate 4 1 n_x M p eps f g (rule3 1 (coef2 X_s) (coef3 X_ss) (coef4 X_sss) (vec_of X_tt) (coef2 X_stt)).
Proof. exact order3_one_state. Qed.
Print Assumptions C109_one_state_partial.

(** s' = s/2 + s^2/2 + eps + s^3 + s eps^2, 4 x - x' + s'^2 + x^3 = 0, shocks of value 1 and -1: all
    hypotheses of C109_one_state_partial are met. *)
Example C109_one_state_example :
  exact_solver gauss_solve /\ schur_routine 1 1 ex_f1 ex_g1 ex_qz /\
  shape c3_f3 = [1; 4; 4; 4]%nat /\ shape c3_g3 = [1; 3; 3; 3]%nat /\
  expands3 4 1 c3_f (coef2 ex_f1) (coef3 ex_f2) (coef4 c3_f3) /\ expands3 3 1 c3_g (coef2 ex_g1) (coef3 ex_g2) (coef4 c3_g3) /\
  symmetric2 1 4 (coef3 ex_f2) /\ symmetric3 1 4 (coef4 c3_f3) /\ symmetric2 1 3 (coef3 ex_g2) /\ symmetric3 1 3 (coef4 c3_g3) /\
  states_controls_separate 1 1 (coef3 ex_g2) /\ shocks 2 1 c3_p c3_eps (coef2 ex_sigma) /\ unskewed 2 1 c3_p c3_eps /\
  exists sol, state_perturb ex_qz gauss_solve [ex_sigma; ex_f1; ex_f2; c3_f3] [ex_sigma; ex_g1; ex_g2; c3_g3] ex_sigma = Ok sol.
Proof.
  exact (conj gauss_exact (conj ex_schur (conj eq_refl (conj eq_refl (conj c3_f_expands (conj c3_g_expands (conj c3_f2_symmetric (conj c3_f3_symmetric
    (conj ex_g_symmetric (conj c3_g3_symmetric (conj c3_separate (conj c3_shocks (conj c3_unskewed c3_order3))))))))))))).
Qed.

(** C109 refuted, second cause.  Two states: s1' = s1/2 + eps, s2' = s2/2 + s1^2, 4 x - x' - 21/8 s2 + s1 x' = 0,
    shocks of value 1 and -1.  States and controls do not interact in the transition, the derivatives given
    are exact, a solution of order three is returned, and its residuals are not of order four. *)
Theorem C109_two_states_refuted :
  exact_solver gauss_solve /\ schur_routine 2 1 w3_f1 w3_g1 w3_qz /\
  expands3 6 1 w3_f (coef2 w3_f1) (coef3 w3_f2) (coef4 w3_f3) /\
  expands3 4 2 w3_g (coef2 w3_g1) (coef3 w3_g2) (coef4 w3_g3) /\
  symmetric2 1 6 (coef3 w3_f2) /\ symmetric2 2 4 (coef3 w3_g2) /\ states_controls_separate 2 1 (coef3 w3_g2) /\
  shocks 2 1 w3_p w3_eps (coef2 w3_sigma) /\ unskewed 2 1 w3_p w3_eps /\
  exists sol X_s X_ss X_sss X_tt X_stt,
    state_perturb w3_qz gauss_solve [w3_sigma; w3_f1; w3_f2; w3_f3] [w3_sigma; w3_g1; w3_g2; w3_g3] w3_sigma = Ok sol /\
    sol = Order3 X_s X_ss X_sss X_tt X_stt /\
    ~ accurate 4 2 1 2 w3_p w3_eps w3_f w3_g (rule3 2 (coef2 X_s) (coef3 X_ss) (coef4 X_sss) (vec_of X_tt) (coef2 X_stt)).
Proof.
  exact (conj gauss_exact (conj w3_schur (conj w3_f_expands (conj w3_g_expands (conj w3_f2_symmetric (conj w3_g2_symmetric (conj w3_separate
    (conj w3_shocks (conj w3_unskewed order3_two_states_inaccurate))))))))).
Qed.
Print Assumptions C109_two_states_refuted.

(** C109.  On derivatives of matching shapes, whatever the numbers of states, controls and shocks, the only
    errors of the third order are those of the first order and those of the linear solver.  (The model of
    C108_raises_example, with the third derivatives of C109_one_state_example, meets the hypotheses.) *)
Theorem C109_raises :
  forall qz solve, exact_solver solve ->
  forall n_s n_x n_e f0 g0 f1 g1 f2 g2 f3 g3 sigma e,
    schur_routine n_s n_x f1 g1 qz ->
    shape f1 = [n_x; (n_s + n_x + (n_s + n_x))%nat] ->
    shape f2 = [n_x; (n_s + n_x + (n_s + n_x))%nat; (n_s + n_x + (n_s + n_x))%nat] ->
    shape f3 = [n_x; (n_s + n_x + (n_s + n_x))%nat; (n_s + n_x + (n_s + n_x))%nat; (n_s + n_x + (n_s + n_x))%nat] ->
    shape g1 = [n_s; (n_s + n_x + n_e)%nat] -> shape g2 = [n_s; (n_s + n_x + n_e)%nat; (n_s + n_x + n_e)%nat] ->
    shape g3 = [n_s; (n_s + n_x + n_e)%nat; (n_s + n_x + n_e)%nat; (n_s + n_x + n_e)%nat] ->
    shape sigma = [n_e; n_e] ->
    state_perturb qz solve [f0; f1; f2; f3] [g0; g1; g2; g3] sigma = Err e ->
    state_perturb qz solve [f0; f1] [g0; g1] sigma = Err e \/ exists n A b, solve n A b = Err e.
Proof. exact order3_raises. Qed.
Print Assumptions C109_raises.

Example C109_raises_example :
  shape c3_f3 = [1; 4; 4; 4]%nat /\ shape c3_g3 = [1; 3; 3; 3]%nat /\
  state_perturb ex_qz failing_solve [ex_sigma; ex_f1; ex_f2; c3_f3] [ex_sigma; ex_g1; ex_g2; c3_g3] ex_sigma = Err ExcLinAlg.
Proof. exact (conj eq_refl (conj eq_refl (ex_raises3 c3_f3 c3_g3))). Qed.
