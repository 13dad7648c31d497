(** Higher-order perturbation: what may raise. *)
From Coq Require Import String Reals List Arith Lia Lra.
From Verif.Base Require Import Prelude Ext Sums Arrays.
From Verif.Spec Require Import LinearAlgebra Perturbation Tensor HigherOrder.
From Verif.Model Require Import DecisionRule Perturbation.
From Verif.Base Require Import Nda.
From Verif.Model Require Import Tensor MatrixEquations Taylor HigherOrder.
From Verif.Proofs Require Import MatrixAlgebra PerturbationProofs PerturbationFinal TensorProofs MatrixEquationsProofs Jets HigherOrderAlgebra HigherOrderOps HigherOrderProofs HigherOrderFinal HigherOrderThird HigherOrderRun3 HigherOrderOrder4.
Import ListNotations.
Open Scope R_scope.

Section Errors.
  Variable qz : nat -> matR -> matR -> ext -> res (matR * matR * matR * matR).
  Variable solve : nat -> matR -> (nat -> R) -> res (nat -> R).
  Hypothesis HE : exact_solver solve.

  Theorem order2_raises : forall n_s n_x n_e f0 g0 f1 g1 f2 g2 sigma e,
      schur_routine n_s n_x f1 g1 qz ->
      shape f1 = [n_x; (n_s + n_x + (n_s + n_x))%nat] ->
      shape f2 = [n_x; (n_s + n_x + (n_s + n_x))%nat; (n_s + n_x + (n_s + n_x))%nat] ->
      shape g1 = [n_s; (n_s + n_x + n_e)%nat] -> shape g2 = [n_s; (n_s + n_x + n_e)%nat; (n_s + n_x + n_e)%nat] ->
      shape sigma = [n_e; n_e] ->
      state_perturb qz solve [f0; f1; f2] [g0; g1; g2] sigma = Err e ->
      state_perturb qz solve [f0; f1] [g0; g1] sigma = Err e \/ exists n A b, solve n A b = Err e.
  Proof.
    intros n_s n_x n_e f0 g0 f1 g1 f2 g2 sigma e HQZ Hf1 Hf2 Hg1 Hg2 Hsig H.
    unfold state_perturb in *. cbn [length Nat.eqb negb] in *.
    rewrite Hf1, Hg1, dims_recovered in *. rewrite (proj2 (Nat.ltb_ge (n_s + n_x) n_x)) in * by lia.
    replace (n_s + n_x - n_x)%nat with n_s in * by lia.
    destruct (first_order qz solve n_s n_x f1 g1) as [X_s|e1] eqn:E1; cbn [bind] in *; [|left; exact H].
    right. destruct (first_order_solves qz solve HE n_s n_x f1 g1 HQZ X_s E1) as (Hns & Hnx & Hs & Hl).
    destruct (second_order solve n_s n_x f1 g1 f2 g2 sigma X_s) as [so|e2] eqn:E2; cbn [bind] in H; [discriminate|].
    apply Err_inj in H. subst e2.
    exact (second_order_error solve HE n_s n_x n_e f1 g1 f2 g2 sigma X_s Hns Hf1 Hg1 Hf2 Hg2 Hsig Hs e E2).
  Qed.

  Theorem order3_raises : forall n_s n_x n_e f0 g0 f1 g1 f2 g2 f3 g3 sigma e,
      schur_routine n_s n_x f1 g1 qz ->
      shape f1 = [n_x; (n_s + n_x + (n_s + n_x))%nat] ->
      shape f2 = [n_x; (n_s + n_x + (n_s + n_x))%nat; (n_s + n_x + (n_s + n_x))%nat] ->
      shape f3 = [n_x; (n_s + n_x + (n_s + n_x))%nat; (n_s + n_x + (n_s + n_x))%nat; (n_s + n_x + (n_s + n_x))%nat] ->
      shape g1 = [n_s; (n_s + n_x + n_e)%nat] -> shape g2 = [n_s; (n_s + n_x + n_e)%nat; (n_s + n_x + n_e)%nat] ->
      shape g3 = [n_s; (n_s + n_x + n_e)%nat; (n_s + n_x + n_e)%nat; (n_s + n_x + n_e)%nat] ->
      shape sigma = [n_e; n_e] ->
      state_perturb qz solve [f0; f1; f2; f3] [g0; g1; g2; g3] sigma = Err e ->
      state_perturb qz solve [f0; f1] [g0; g1] sigma = Err e \/ exists n A b, solve n A b = Err e.
  Proof.
    intros n_s n_x n_e f0 g0 f1 g1 f2 g2 f3 g3 sigma e HQZ Hf1 Hf2 Hf3 Hg1 Hg2 Hg3 Hsig H.
    unfold state_perturb in *. cbn [length Nat.eqb negb] in *.
    rewrite Hf1, Hg1, dims_recovered in *. rewrite (proj2 (Nat.ltb_ge (n_s + n_x) n_x)) in * by lia.
    replace (n_s + n_x - n_x)%nat with n_s in * by lia. replace (n_s + n_x + n_e - n_x - n_s)%nat with n_e in * by lia.
    destruct (first_order qz solve n_s n_x f1 g1) as [Y|e1] eqn:E1; cbn [bind] in *; [|left; exact H].
    right. destruct (first_order_solves qz solve HE n_s n_x f1 g1 HQZ Y E1) as (Hns & Hnx & Hs & Hl).
    destruct (second_order solve n_s n_x f1 g1 f2 g2 sigma Y) as [so|e2] eqn:E2; cbn [bind] in H.
    2:{ apply Err_inj in H. subst e2. exact (second_order_error solve HE n_s n_x n_e f1 g1 f2 g2 sigma Y Hns Hf1 Hg1 Hf2 Hg2 Hsig Hs e E2). }
    pose proof (second_order_equations solve HE n_s n_x n_e f1 g1 f2 g2 sigma Y Hns Hf1 Hg1 Hf2 Hg2 Hsig Hs so E2) as HQ.
    pose proof (is3_self _ _ _ _ (e_Xss _ _ _ _ _ _ _ _ _ _ HQ)) as HXss.
    assert (HXtt : is1 (so_Xtt so) n_x (fun i => at_ (so_Xtt so) [i])) by (split; [exact (e_Xtt _ _ _ _ _ _ _ _ _ _ HQ)|reflexivity]).
    destruct (third_states_run solve n_s n_x n_e f1 g1 f2 g2 f3 g3 Y Hf1 Hg1 Hf2 Hg2 Hf3 Hg3 Hs _ so
      (e_V13 _ _ _ _ _ _ _ _ _ _ HQ) (e_V1 _ _ _ _ _ _ _ _ _ _ HQ) (e_K2 _ _ _ _ _ _ _ _ _ _ HQ) (e_L _ _ _ _ _ _ _ _ _ _ HQ) HXss) as (B & D & ES & HB & HD).
    rewrite ES in H. destruct (solve_sylvester solve (to_mat (so_A so)) (to_mat B) (to_mat (so_V13 so)) D) as [Y3|e3] eqn:E3; cbn [bind] in H.
    2:{ apply Err_inj in H. subst e3.
        exact (sylvester_error _ _ _ _ _ n_x n_s 3 (to_mat_dims _ _ _ _ (e_A _ _ _ _ _ _ _ _ _ _ HQ)) (to_mat_dims _ _ _ _ HB)
                 (to_mat_dims _ _ _ _ (e_V13 _ _ _ _ _ _ _ _ _ _ HQ)) (proj1 HD) ltac:(lia) Hns _ E3). }
    destruct (sylvester4 _ _ _ _ _ _ _ _ _ _ _ _ HE Hns (e_A _ _ _ _ _ _ _ _ _ _ HQ) HB (e_V13 _ _ _ _ _ _ _ _ _ _ HQ) HD E3) as (HY3 & Hq3).
    destruct (third_risk_run solve n_s n_x n_e f1 g1 f2 g2 f3 g3 sigma Y Hf1 Hg1 Hf2 Hg2 Hf3 Hg3 Hsig Hs _ _ so
      (e_V13 _ _ _ _ _ _ _ _ _ _ HQ) (e_V1 _ _ _ _ _ _ _ _ _ _ HQ) (e_L _ _ _ _ _ _ _ _ _ _ HQ) HXss HXtt _ Y3 HY3) as (B' & D' & ER & HB' & HD').
    rewrite ER in H. destruct (solve_sylvester solve (to_mat (so_A so)) (to_mat B') (to_mat (so_V13 so)) D') as [Yt|e4] eqn:Et; cbn [bind] in H; [discriminate|].
    apply Err_inj in H. subst e4.
    exact (sylvester_error _ _ _ _ _ n_x n_s 1 (to_mat_dims _ _ _ _ (e_A _ _ _ _ _ _ _ _ _ _ HQ)) (to_mat_dims _ _ _ _ HB')
             (to_mat_dims _ _ _ _ (e_V13 _ _ _ _ _ _ _ _ _ _ HQ)) (proj1 HD') ltac:(lia) Hns _ Et).
  Qed.
End Errors.

Definition failing_solve : nat -> matR -> (nat -> R) -> res (nat -> R) := fun _ _ _ => Err ExcLinAlg.
Lemma failing_exact : exact_solver failing_solve.
Proof. intros n A b x H. discriminate H. Qed.
Lemma ex_raises : state_perturb ex_qz failing_solve [ex_sigma; ex_f1; ex_f2] [ex_sigma; ex_g1; ex_g2] ex_sigma = Err ExcLinAlg.
Proof.
  unfold state_perturb. cbn [length Nat.eqb negb shape ex_f1 ex_g1]. change (4 / 2)%nat with 2%nat. cbn [Nat.ltb Nat.leb Nat.sub].
  fold ex_f1 ex_g1. unfold first_order, ex_qz. cbv zeta. cbn [bind].
  rewrite pairs_ok_ones by (intros i _; unfold eye; rewrite Nat.eqb_refl; reflexivity). cbn [negb].
  assert (Eb : bk_check 1 1 (eigval eye (ex_diag2 (1/2) 4)) = Ok true).
  { unfold bk_check. cbn [Nat.eqb seq].
    rewrite (proj2 (existsb_exists _ _ : some_above _ _ = true <-> _)).
    + f_equal. apply existsb_exists. exists 1%nat. split; [cbn; auto|].
      rewrite (eigval_fin _ _ _ (1/4)); [| |].
      * unfold ext_ltb. cbn. destruct (Rle_dec 1 (1 / 4)); [lra|reflexivity].
      * cbn. lra.
      * cbn. unfold eye. cbn. rewrite Rabs_pos_eq; lra.
    + exists 0%nat. split; [cbn; auto|]. rewrite (eigval_fin _ _ _ 2).
      * cbn. destruct (Rle_dec 1 2); [reflexivity|lra].
      * cbn. lra.
      * cbn. unfold eye. cbn. rewrite Rabs_pos_eq; lra. }
  rewrite Eb. cbn [bind]. unfold first_rule. reflexivity.
Qed.
Lemma ex_raises3 : forall f3 g3, state_perturb ex_qz failing_solve [ex_sigma; ex_f1; ex_f2; f3] [ex_sigma; ex_g1; ex_g2; g3] ex_sigma = Err ExcLinAlg.
Proof.
  intros f3 g3.
  unfold state_perturb. cbn [length Nat.eqb negb shape ex_f1 ex_g1]. change (4 / 2)%nat with 2%nat. cbn [Nat.ltb Nat.leb Nat.sub].
  fold ex_f1 ex_g1. unfold first_order, ex_qz. cbv zeta. cbn [bind].
  rewrite pairs_ok_ones by (intros i _; unfold eye; rewrite Nat.eqb_refl; reflexivity). cbn [negb].
  assert (Eb : bk_check 1 1 (eigval eye (ex_diag2 (1/2) 4)) = Ok true).
  { unfold bk_check. cbn [Nat.eqb seq].
    rewrite (proj2 (existsb_exists _ _ : some_above _ _ = true <-> _)).
    + f_equal. apply existsb_exists. exists 1%nat. split; [cbn; auto|].
      rewrite (eigval_fin _ _ _ (1/4)); [| |].
      * unfold ext_ltb. cbn. destruct (Rle_dec 1 (1 / 4)); [lra|reflexivity].
      * cbn. lra.
      * cbn. unfold eye. cbn. rewrite Rabs_pos_eq; lra.
    + exists 0%nat. split; [cbn; auto|]. rewrite (eigval_fin _ _ _ 2).
      * cbn. destruct (Rle_dec 1 2); [reflexivity|lra].
      * cbn. lra.
      * cbn. unfold eye. cbn. rewrite Rabs_pos_eq; lra. }
  rewrite Eb. cbn [bind]. unfold first_rule. reflexivity.
Qed.
