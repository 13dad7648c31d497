(** A one-state model that meets the hypotheses of [order3_one_state]:
    s' = s/2 + s^2/2 + eps + s^3 + s eps^2, 4 x - x' + s'^2 + x^3 = 0. *)
From Coq Require Import Reals List Arith Lia Lra.
From Verif.Base Require Import Prelude Ext Sums Arrays Nda.
From Verif.Spec Require Import LinearAlgebra Perturbation HigherOrder.
From Verif.Model Require Import DecisionRule Perturbation LinearSolve Tensor MatrixEquations HigherOrder.
From Verif.Proofs Require Import MatrixAlgebra PerturbationFinal HigherOrderAlgebra HigherOrderOps HigherOrderFinal HigherOrderThird HigherOrderProofs HigherOrderRun3 HigherOrderOrder4.
Import ListNotations.
Open Scope R_scope.

Definition c3_f3 : nda := Nda [1; 4; 4; 4]%nat (fun idx => match idx with [_; 1%nat; 1%nat; 1%nat] => 6 | _ => 0 end).
Definition c3_g3 : nda := Nda [1; 3; 3; 3]%nat (fun idx => match idx with
  | [_; 0%nat; 0%nat; 0%nat] => 6
  | [_; 0%nat; 2%nat; 2%nat] | [_; 2%nat; 0%nat; 2%nat] | [_; 2%nat; 2%nat; 0%nat] => 2
  | _ => 0 end).
Definition c3_f : vector -> vector := fun u _ => 4 * u 1%nat - u 3%nat + u 2%nat ^ 2 + u 1%nat ^ 3.
Definition c3_g : vector -> vector := fun u _ => u 0%nat / 2 + u 0%nat ^ 2 / 2 + u 2%nat + u 0%nat ^ 3 + u 0%nat * u 2%nat ^ 2.
Definition c3_p : vector := fun _ => 1 / 2.
Definition c3_eps : nat -> vector := fun k _ => if Nat.eqb k 0 then 1 else -1.

Lemma c3_f_expands : expands3 4 1 c3_f (coef2 ex_f1) (coef3 ex_f2) (coef4 c3_f3).
Proof.
  exists 0, 1. split; [lra|]. intros u _ i Hi. rewrite Rmult_0_l. right.
  match goal with |- Rabs ?e = 0 => replace e with 0; [apply Rabs_R0|] end.
  unfold poly3, poly2, lin, bil, tri, c3_f, coef2, coef3, coef4. cbn. field.
Qed.
Lemma c3_g_expands : expands3 3 1 c3_g (coef2 ex_g1) (coef3 ex_g2) (coef4 c3_g3).
Proof.
  exists 0, 1. split; [lra|]. intros u _ i Hi. rewrite Rmult_0_l. right.
  match goal with |- Rabs ?e = 0 => replace e with 0; [apply Rabs_R0|] end.
  unfold poly3, poly2, lin, bil, tri, c3_g, coef2, coef3, coef4. cbn. field.
Qed.
Lemma c3_f2_symmetric : symmetric2 1 4 (coef3 ex_f2).
Proof. intros i j k _ Hj Hk. destruct j as [|[|[|[|j]]]]; try lia; destruct k as [|[|[|[|k]]]]; try lia; reflexivity. Qed.
Lemma c3_f3_symmetric : symmetric3 1 4 (coef4 c3_f3).
Proof.
  intros i j k l _ Hj Hk Hl. destruct j as [|[|[|[|j]]]]; try lia; destruct k as [|[|[|[|k]]]]; try lia;
    destruct l as [|[|[|[|l]]]]; try lia; split; reflexivity.
Qed.
Lemma c3_g3_symmetric : symmetric3 1 3 (coef4 c3_g3).
Proof.
  intros i j k l _ Hj Hk Hl. destruct j as [|[|[|j]]]; try lia; destruct k as [|[|[|k]]]; try lia;
    destruct l as [|[|[|l]]]; try lia; split; reflexivity.
Qed.
Lemma c3_separate : states_controls_separate 1 1 (coef3 ex_g2).
Proof. intros i j a Hi Hj Ha. destruct j; [|lia]. destruct a; [|lia]. reflexivity. Qed.
Lemma c3_shocks : shocks 2 1 c3_p c3_eps (coef2 ex_sigma).
Proof. unfold c3_p, c3_eps. constructor; cbn; intros; unfold coef2; cbn; lra. Qed.
Lemma c3_unskewed : unskewed 2 1 c3_p c3_eps.
Proof. unfold c3_p, c3_eps. intros a b c _ _ _. cbn. lra. Qed.

Section Run.
  (* Names for the arrays, so that nothing is computed by unfolding them. *)
  Variables f3 g3 : nda.
  Hypothesis Hf3 : shape f3 = [1; 4; 4; 4]%nat.
  Hypothesis Hg3 : shape g3 = [1; 3; 3; 3]%nat.

  Lemma c3_run : exists sol, state_perturb ex_qz gauss_solve [ex_sigma; ex_f1; ex_f2; f3] [ex_sigma; ex_g1; ex_g2; g3] ex_sigma = Ok sol.
  Proof.
    unfold state_perturb. cbn [length Nat.eqb negb shape ex_f1 ex_g1]. change (4 / 2)%nat with 2%nat. cbn [Nat.ltb Nat.leb Nat.sub].
    destruct ex_first as (X_s & E1 & Hs). fold ex_f1 ex_g1. rewrite E1. cbn [bind].
    destruct (second_order_returns gauss_solve 1 1 1 ex_f1 ex_g1 ex_f2 ex_g2 ex_sigma X_s eq_refl eq_refl eq_refl eq_refl eq_refl Hs) as (so & Eso).
    - intros A B C D HA HB HC HD. apply (ex_sylvester _ _ _ _ _ _ _ _ HA HB HC HD).
      cbv -[Rplus Rmult Ropp Rinv IZR Rminus Rdiv at_ pow]. cbn -[Rdiv]. lra.
    - intros L b HL. apply gauss_one. rewrite to_mat_get, (proj2 HL) by lia.
      cbv -[Rplus Rmult Ropp Rinv IZR Rminus Rdiv at_ pow]. cbn. lra.
    - rewrite Eso. cbn [bind].
      pose proof (second_order_equations gauss_solve gauss_exact 1 1 1 ex_f1 ex_g1 ex_f2 ex_g2 ex_sigma X_s (le_n 1) eq_refl eq_refl eq_refl eq_refl eq_refl Hs so Eso) as HQ.
      pose proof (is3_self _ _ _ _ (e_Xss _ _ _ _ _ _ _ _ _ _ HQ)) as HXss.
      assert (HXtt : is1 (so_Xtt so) 1 (fun i => at_ (so_Xtt so) [i])) by (split; [exact (e_Xtt _ _ _ _ _ _ _ _ _ _ HQ)|reflexivity]).
      pose proof (e_A _ _ _ _ _ _ _ _ _ _ HQ) as HA. pose proof (e_V13 _ _ _ _ _ _ _ _ _ _ HQ) as HP.
      destruct (third_states_run gauss_solve 1 1 1 ex_f1 ex_g1 ex_f2 ex_g2 f3 g3 X_s eq_refl eq_refl eq_refl eq_refl Hf3 Hg3 Hs _ so
        HP (e_V1 _ _ _ _ _ _ _ _ _ _ HQ) (e_K2 _ _ _ _ _ _ _ _ _ _ HQ) (e_L _ _ _ _ _ _ _ _ _ _ HQ) HXss) as (B & D & ES & HB & HD).
      rewrite ES.
      destruct (one_sylvester _ _ _ _ _ _ _ 3 HA HB HP (proj1 HD) ltac:(lia)) as (Y3 & E3).
      { cbv -[Rplus Rmult Ropp Rinv IZR Rminus Rdiv at_ pow]. cbn -[Rdiv]. lra. }
      rewrite E3. cbn [bind].
      destruct (sylvester4 _ _ _ _ _ _ _ _ _ _ _ _ gauss_exact (le_n 1) HA HB HP HD E3) as (HY3 & _).
      destruct (third_risk_run gauss_solve 1 1 1 ex_f1 ex_g1 ex_f2 ex_g2 f3 g3 ex_sigma X_s eq_refl eq_refl eq_refl eq_refl Hf3 Hg3 eq_refl Hs _ _ so
        HP (e_V1 _ _ _ _ _ _ _ _ _ _ HQ) (e_L _ _ _ _ _ _ _ _ _ _ HQ) HXss HXtt _ Y3 HY3) as (B' & D' & ER & HB' & HD').
      rewrite ER.
      destruct (one_sylvester _ _ _ _ _ _ _ 1 HA HB' HP (proj1 HD') (le_n 1)) as (Yt & Et).
      { cbv -[Rplus Rmult Ropp Rinv IZR Rminus Rdiv at_ pow]. cbn -[Rdiv]. lra. }
      rewrite Et. cbn [bind]. eexists. reflexivity.
  Qed.
End Run.

Lemma c3_order3 : exists sol,
    state_perturb ex_qz gauss_solve [ex_sigma; ex_f1; ex_f2; c3_f3] [ex_sigma; ex_g1; ex_g2; c3_g3] ex_sigma = Ok sol.
Proof. exact (c3_run c3_f3 c3_g3 eq_refl eq_refl). Qed.
