(** Third-order perturbation: from the arrays computed to the conditions. *)
From Coq Require Import String Reals List Arith Lia Lra.
From Verif.Base Require Import Prelude Ext Sums Arrays.
From Verif.Spec Require Import LinearAlgebra Perturbation Tensor HigherOrder.
From Verif.Model Require Import LinearSolve DecisionRule Perturbation.
From Verif.Base Require Import Nda.
From Verif.Model Require Import Tensor MatrixEquations Taylor HigherOrder.
From Verif.Proofs Require Import MatrixAlgebra PerturbationProofs PerturbationFinal TensorProofs MatrixEquationsProofs TaylorProofs
  Jets HigherOrderAlgebra HigherOrderOps HigherOrderProofs HigherOrderFinal HigherOrderCubic HigherOrderRun3 HigherOrderTri.
Import ListNotations.
Open Scope R_scope.

Section Chain3.
  Variables n_s n_x n_e : nat.
  Variables f1 g1 f2 g2 f3 g3 sigma X_s : nda.
  Hypothesis Hns : (1 <= n_s)%nat.
  Variables (Xss : nat -> nat -> nat -> R) (Xtt : vector) (Xsss : nat -> nat -> nat -> nat -> R) (Xstt : nat -> nat -> R).
  Let F1 := fun i j => at_ f1 [i; j].
  Let G1 := fun i j => at_ g1 [i; j].
  Let F2 := fun i j k => at_ f2 [i; j; k].
  Let G2 := fun i j k => at_ g2 [i; j; k].
  Let F3 := fun i j k l => at_ f3 [i; j; k; l].
  Let G3 := fun i j k l => at_ g3 [i; j; k; l].
  Let N := (n_s + (n_x + (n_s + n_x)))%nat.
  Let G := (n_s + (n_x + n_e))%nat.
  Let X := c_X X_s.
  Let P := c_P n_s n_x g1 X_s.
  Let V := c_V n_s n_x g1 X_s.
  Let fX := c_fX n_s n_x f1.
  Let L := c_L n_s n_x f1 X_s.
  Let gx := c_gx n_s g1.
  Let ge := c_ge n_s n_x g1.
  Let K2 := c_K2 n_s n_x g2 X_s.
  Let K3 := d_K3 n_s n_x g2 g3 X_s Xss.
  Let V23 := d_V23 n_s n_x g1 g2 X_s Xss.
  Let XV2 := d_XV2 n_s n_x g1 g2 X_s Xss.
  Let V2 := d_V2 n_s n_x g1 g2 X_s Xss.

  Hypothesis Sf2 : symmetric2 n_x N F2.
  Hypothesis Sg2 : symmetric2 n_s G G2.
  Hypothesis SX : symmetric2 n_x n_s Xss.
  Hypothesis Sg3 : symmetric3 n_s G G3.

  (** Arguments of g: states, controls, shocks. *)
  Let aS (h : vector) : vector := glue n_s h zero.
  Let aX (x : vector) : vector := glue n_s zero (glue n_x x zero).
  Let aE (e : vector) : vector := glue n_s zero (glue n_x zero e).

  Lemma w_parts : forall h j, w_of n_s n_x X h j = aS h j + 1 * aX (lin n_s X h) j.
  Proof.
    intros h j. unfold w_of, HigherOrderAlgebra.stack3, aS, aX, x_of, glue, zero. destruct (Nat.ltb _ _); [ring|]. destruct (Nat.ltb _ _); ring.
  Qed.

  Let g_ssx := fun i j k a => at_ g3 [i; j; k; (n_s + a)%nat].
  Let g_sxx := fun i j a b => at_ g3 [i; j; (n_s + a)%nat; (n_s + b)%nat].
  Let g_xxx := fun i a b c => at_ g3 [i; (n_s + a)%nat; (n_s + b)%nat; (n_s + c)%nat].
  Let g_sx := fun i j a => at_ g2 [i; j; (n_s + a)%nat].
  Let g_xx := fun i a b => at_ g2 [i; (n_s + a)%nat; (n_s + b)%nat].

  Lemma cubic_parts : forall n A u v i, (forall j k l, (j < n)%nat -> (k < n)%nat -> (l < n)%nat -> A i j k l = A i k j l /\ A i j k l = A i j l k) ->
      tri n n n A (fun j => u j + 1 * v j) (fun j => u j + 1 * v j) (fun j => u j + 1 * v j) i
      = tri n n n A u u u i + 3 * tri n n n A u u v i + 3 * tri n n n A u v v i + tri n n n A v v v i.
  Proof.
    intros n A u v i H. rewrite tri_plus_1, !tri_plus_2, !tri_plus_3.
    assert (S12 : forall a b c, tri n n n A a b c i = tri n n n A b a c i) by (intros; apply tri_swap_12; intros; apply H; assumption).
    assert (S23 : forall a b c, tri n n n A a b c i = tri n n n A a c b i) by (intros; apply tri_swap_23; intros; apply H; assumption).
    rewrite (S23 u v u), (S12 v u u), (S23 u v u), (S12 v u v), (S23 v v u), (S12 v u v). ring.
  Qed.

  Lemma g3_w : forall h i, (i < n_s)%nat ->
      tri G G G G3 (w_of n_s n_x X h) (w_of n_s n_x X h) (w_of n_s n_x X h) i
      = tri n_s n_s n_s G3 h h h i + 3 * tri n_s n_s n_x g_ssx h h (lin n_s X h) i + 3 * tri n_s n_x n_x g_sxx h (lin n_s X h) (lin n_s X h) i
        + tri n_x n_x n_x g_xxx (lin n_s X h) (lin n_s X h) (lin n_s X h) i.
  Proof.
    intros h i Hi. rewrite (tri_ext_v G G G G3 _ _ _ _ _ _ i (fun j _ => w_parts h j) (fun j _ => w_parts h j) (fun j _ => w_parts h j)).
    rewrite cubic_parts by (intros; apply Sg3; assumption). unfold aS, aX, G.
    rewrite !tri_head_1, !tri_head_2, !tri_head_3, !tri_tail_1, !tri_tail_2, !tri_tail_3, !tri_head_1, !tri_head_2, !tri_head_3. reflexivity.
  Qed.
  Lemma g2_wx : forall h x i, (i < n_s)%nat ->
      bil G G G2 (w_of n_s n_x X h) (HigherOrderAlgebra.stack3 n_s n_x zero x zero) i = bil n_s n_x g_sx h x i + bil n_x n_x g_xx (lin n_s X h) x i.
  Proof.
    intros h x i Hi. rewrite (bil_ext_v G G G2 _ _ (fun j => aS h j + (fun j => 1 * aX (lin n_s X h) j) j) (aX x) i (fun j _ => w_parts h j)) by reflexivity.
    rewrite bil_plus_l, bil_scal_l. unfold aS, aX, G. rewrite !bil_head_1, !bil_tail_1, !bil_tail_2, !bil_head_1, !bil_head_2. unfold G2, g_sx, g_xx. ring.
  Qed.

  Hypothesis Hsep : states_controls_separate n_s n_x G2.
  Lemma sep_zero : forall h x i, (i < n_s)%nat -> bil n_s n_x g_sx h x i = 0.
  Proof. intros h x i Hi. apply bil_zero_coef. intros j k Hj Hk. exact (Hsep i j k Hi Hj Hk). Qed.

  Lemma tri_K3 : forall h i, (i < n_s)%nat -> tri n_s n_s n_s K3 h h h i
      = 3 * bil G G G2 (w_of n_s n_x X h) (HigherOrderAlgebra.stack3 n_s n_x zero (bil n_s n_s Xss h h) zero) i + tri G G G G3 (w_of n_s n_x X h) (w_of n_s n_x X h) (w_of n_s n_x X h) i.
  Proof.
    intros h i Hi. rewrite g3_w, g2_wx, sep_zero by exact Hi. unfold K3, d_K3. fold X. rewrite !tri_add_coef, !tri_scal_coef.
    rewrite (tri_comp_3 n_s n_s n_s n_x g_ssx X), (tri_comp_23 n_s n_s n_s n_x n_x g_sxx X X), (tri_bil_23 n_s n_s n_s n_x g_sx Xss),
      (tri_comp_21 n_s n_s n_s n_x n_x g_xx Xss X), (tri_comp_111 n_s n_s n_s n_x n_x n_x g_xxx X X X), sep_zero by exact Hi.
    rewrite (bil_swap n_x g_xx (lin n_s X h) (bil n_s n_s Xss h h) i).
    - unfold G3. ring.
    - intros j k Hj Hk. unfold g_xx. apply (Sg2 i (n_s + j) (n_s + k))%nat; unfold G; lia.
  Qed.

  Lemma s3_value : forall h i, (i < n_s)%nat ->
      s3_of n_s n_x n_e G1 G2 G3 X Xss Xsss h i = lin n_x gx (tri n_s n_s n_s Xsss h h h) i + tri n_s n_s n_s K3 h h h i.
  Proof.
    intros h i Hi. unfold s3_of. rewrite tri_K3 by exact Hi. unfold G1. rewrite lin_stack3 by exact Hns.
    rewrite (lin_zero n_s (c_gs g1) zero), (lin_zero n_e (c_ge n_s n_x g1) zero) by reflexivity. unfold G, gx. ring.
  Qed.
  Lemma V23_value : forall h i, (i < n_s)%nat -> bil n_s n_s V23 h h i = s2_of n_s n_x n_e G1 G2 X Xss h i.
  Proof.
    intros h i Hi. unfold V23, d_V23. rewrite bil_add_coef, bil_of_lin.
    rewrite (bil_K2 n_s n_x n_e g2 X_s Hns) by first [exact Hi|intros; apply Sg2; unfold G; lia].
    unfold s2_of, G1. rewrite lin_stack3 by exact Hns.
    rewrite (lin_zero n_s (c_gs g1) zero), (lin_zero n_e (c_ge n_s n_x g1) zero) by reflexivity. unfold G2, X. ring.
  Qed.

  Lemma bil_above : forall n m F H u v a, (a < n + m)%nat -> forall q r, bil q r (above n F H) u v a = glue n (bil q r F u v) (bil q r H u v) a.
  Proof. intros n m F H u v a Ha q r. unfold bil, above, glue. destruct (Nat.ltb a n); reflexivity. Qed.

  (** What numpy.dot computes is the product of X_s and V2_3. *)
  Hypothesis Hdot : forall h i, (i < n_x)%nat -> bil n_s n_s XV2 h h i = lin n_s X (bil n_s n_s V23 h h) i.

  Lemma V2_value : forall h a, (a < N)%nat -> bil n_s n_s V2 h h a = v2_of n_s n_x n_e G1 G2 X Xss h a.
  Proof.
    intros h a Ha. unfold V2, d_V2, v2_of, stack4. rewrite (bil_above n_s (n_x + (n_s + n_x)) _ _ h h a Ha).
    apply (glue_ext n_s (n_x + (n_s + n_x))); [|intros b Hb|exact Ha].
    - intros b _. apply bil_zero_coef. reflexivity.
    - rewrite (bil_above n_x (n_s + n_x) _ _ h h b Hb). apply (glue_ext n_x (n_s + n_x)); [reflexivity|intros c Hc|exact Hb].
      rewrite (bil_above n_s n_x _ _ h h c Hc). apply (glue_ext n_s n_x); [intros; apply V23_value; assumption|intros d Hd|exact Hc].
      unfold d_V24. rewrite bil_add_coef, bil_comp. fold XV2. rewrite Hdot by exact Hd. f_equal.
      + unfold x_of. apply lin_ext_v. intros. apply V23_value. assumption.
      + apply bil_ext_v; intros; apply lin_P; exact Hns.
  Qed.

  Hypothesis Heq3 : forall i j k l, (i < n_x)%nat -> (j < n_s)%nat -> (k < n_s)%nat -> (l < n_s)%nat ->
      rsum n_x (fun c => c_A n_s n_x f1 g1 X_s i c * Xsss c j k l)
      + rsum n_x (fun c => fX i c * rsum n_s (fun l1 => rsum n_s (fun l2 => rsum n_s (fun l3 => Xsss c l1 l2 l3 * P l1 j * P l2 k * P l3 l))))
      + d_D3 n_s n_x f1 g1 f2 g2 f3 g3 X_s Xss i j k l = 0.

  Lemma chain_condition3 : condition3 n_s n_x n_e F1 G1 F2 G2 F3 G3 X Xss Xsss.
  Proof.
    intros h i Hi. unfold F1. rewrite lin_stack4 by (exact 0%nat || exact Hns). fold F1. rewrite (lin_zero n_s (fun i j => at_ f1 [i; j]) zero) by reflexivity.
    set (u := tri n_s n_s n_s Xsss h h h). set (S3 := s3_of n_s n_x n_e G1 G2 G3 X Xss Xsss h). set (sn := s_next n_s n_x n_e G1 X h).
    assert (EP : forall j, lin n_s P h j = sn j) by (intros; apply lin_P; exact Hns).
    assert (EV : forall a, (a < N)%nat -> lin n_s V h a = v_of n_s n_x n_e G1 X h a) by (intros a Ha; apply lin_V; [exact Hns|unfold N in Ha; lia]).
    assert (EQ : lin n_x (c_A n_s n_x f1 g1 X_s) u i + lin n_x fX (tri n_s n_s n_s Xsss sn sn sn) i
                 + (tri N N N F3 (v_of n_s n_x n_e G1 X h) (v_of n_s n_x n_e G1 X h) (v_of n_s n_x n_e G1 X h) i
                    + 3 * bil N N F2 (v_of n_s n_x n_e G1 X h) (v2_of n_s n_x n_e G1 G2 X Xss h) i
                    + lin n_s L (tri n_s n_s n_s K3 h h h) i
                    + lin n_x fX (fun c => 3 * bil n_s n_s Xss sn (s2_of n_s n_x n_e G1 G2 X Xss h) c) i) = 0).
    { transitivity (tri n_s n_s n_s (fun i j k l => rsum n_x (fun c => c_A n_s n_x f1 g1 X_s i c * Xsss c j k l)
        + rsum n_x (fun c => fX i c * rsum n_s (fun l1 => rsum n_s (fun l2 => rsum n_s (fun l3 => Xsss c l1 l2 l3 * P l1 j * P l2 k * P l3 l))))
        + d_D3 n_s n_x f1 g1 f2 g2 f3 g3 X_s Xss i j k l) h h h i); [|apply tri_zero_coef; intros; apply Heq3; assumption].
      rewrite !tri_add_coef, !tri_of_lin. f_equal; [f_equal|].
      - apply lin_ext_v. intros c _. rewrite tri_comp_111. apply tri_ext_v; intros; symmetry; apply EP.
      - unfold d_D3. rewrite !tri_add_coef, tri_scal_coef, !tri_of_lin, tri_comp_111, tri_comp_21.
        replace (n_s + n_x + (n_s + n_x))%nat with N by (unfold N; lia). f_equal; [f_equal; f_equal|].
        + apply tri_ext_v; intros; symmetry; apply EV; assumption.
        + f_equal. rewrite (bil_swap N F2) by (intros; apply Sf2; assumption). apply bil_ext_v; intros; symmetry; [apply V2_value; assumption|apply EV; assumption].
        + apply lin_ext_v. intros c _. rewrite tri_scal_coef, tri_comp_12. f_equal. apply bil_ext_v; intros; symmetry; [apply EP|apply V23_value; assumption]. }
    assert (EL : lin n_s L S3 i = lin n_s L (lin n_x gx u) i + lin n_s L (tri n_s n_s n_s K3 h h h) i).
    { rewrite <- lin_plus. apply lin_ext_v. intros. apply s3_value. assumption. }
    unfold L in EL, EQ. rewrite lin_L in EL. rewrite lin_A in EQ. fold L in EL, EQ.
    rewrite (lin_plus n_x (c_fX n_s n_x f1) (fun i => x_of n_s X S3 i + 3 * bil n_s n_s Xss sn (s2_of n_s n_x n_e G1 G2 X Xss h) i) (tri n_s n_s n_s Xsss sn sn sn)).
    rewrite (lin_plus n_x (c_fX n_s n_x f1) (x_of n_s X S3) (fun i => 3 * bil n_s n_s Xss sn (s2_of n_s n_x n_e G1 G2 X Xss h) i)).
    unfold x_of at 1. unfold X at 1. unfold fX, gx in *. fold N. lra.
  Qed.

  (** ** Risk *)
  Variables (M : nat) (p : vector) (eps : nat -> vector).
  Hypothesis Hsh : shocks M n_e p eps (fun i j => at_ sigma [i; j]).
  Let Vsl := r_Vsl n_s n_x n_e g2 X_s.
  Let Wl := r_Wl n_s n_x g1 X_s.
  Let Wsl := r_Wsl n_s n_x n_e g1 g2 X_s Xss.
  Let gee := r_gee n_s n_x g2.
  Let SW := r_SW n_s n_x g1 g2 X_s Xss.
  Let gX := r_gX n_s n_x g1 Xtt.
  Let DW := r_DW n_s n_x g1 X_s Xtt.
  Let nv := (n_s + n_x)%nat.

  Lemma ge_value : forall e i, lin n_e ge e i = s_shock n_s n_x n_e G1 e i.
  Proof. intros. symmetry. apply s_shock_ge. exact Hns. Qed.
  Lemma P_value : forall h i, lin n_s P h i = s_next n_s n_x n_e G1 X h i.
  Proof. intros. apply lin_P. exact Hns. Qed.
  Lemma V_value : forall h a, (a < N)%nat -> lin n_s V h a = v_of n_s n_x n_e G1 X h a.
  Proof. intros h a Ha. apply lin_V; [exact Hns|unfold N in Ha; lia]. Qed.

  Lemma Vsl_value : forall h e i, (i < n_s)%nat -> bil n_s n_e Vsl h e i = s_mixed n_s n_x n_e G2 X h e i.
  Proof.
    intros h e i Hi. unfold Vsl, r_Vsl. rewrite bil_add_coef, (bil_comp n_s n_e n_x n_e (fun i a b => at_ g2 [i; (n_s + a)%nat; (n_s + n_x + b)%nat]) (c_X X_s) eye).
    unfold s_mixed. fold G.
    rewrite (bil_ext_v G G G2 _ (e_of n_s n_x e) (fun j => aS h j + (fun j => 1 * aX (lin n_s X h) j) j) (aE e) i (fun j _ => w_parts h j)) by reflexivity.
    rewrite bil_plus_l, bil_scal_l. unfold aS, aX, aE, G. rewrite !bil_head_1, !bil_tail_1, !bil_head_1, !bil_tail_2. rewrite Rmult_1_l. unfold G2, X. f_equal.
    - apply bil_ext; [|reflexivity|reflexivity]. intros j k _ _. do 4 f_equal. lia.
    - apply bil_ext; [|reflexivity|intros; apply lin_eye; assumption]. intros j k _ _. do 4 f_equal. lia.
  Qed.
  Lemma gee_value : forall e i, bil n_e n_e gee e e i = bil G G G2 (e_of n_s n_x e) (e_of n_s n_x e) i.
  Proof.
    intros e i. unfold e_of, HigherOrderAlgebra.stack3, G. rewrite !bil_tail_1, !bil_tail_2. apply bil_ext; [|reflexivity|reflexivity].
    intros j k _ _. unfold gee, r_gee, G2. do 2 f_equal. f_equal; [lia|]. f_equal. lia.
  Qed.
  Lemma Wl_value : forall e a, (a < nv)%nat -> lin n_e Wl e a = glue n_s (s_shock n_s n_x n_e G1 e) (x_of n_s X (s_shock n_s n_x n_e G1 e)) a.
  Proof.
    intros e a Ha. unfold Wl, r_Wl. rewrite (lin_above n_s n_x _ _ e a Ha). apply (glue_ext n_s n_x); [intros; apply ge_value|intros b Hb|exact Ha].
    rewrite lin_comp. apply lin_ext_v. intros. apply ge_value.
  Qed.
  Lemma Wsl_value : forall h e a, (a < nv)%nat -> bil n_s n_e Wsl h e a
      = glue n_s (s_mixed n_s n_x n_e G2 X h e) (fun i => x_of n_s X (s_mixed n_s n_x n_e G2 X h e) i + bil n_s n_s Xss (s_next n_s n_x n_e G1 X h) (s_shock n_s n_x n_e G1 e) i) a.
  Proof.
    intros h e a Ha. unfold Wsl, r_Wsl. rewrite (bil_above n_s n_x _ _ h e a Ha). apply (glue_ext n_s n_x); [intros; apply Vsl_value; assumption|intros b Hb|exact Ha].
    rewrite bil_add_coef, bil_comp, bil_of_lin. rewrite Rplus_comm. f_equal.
    - apply lin_ext_v. intros. apply Vsl_value. assumption.
    - apply bil_ext_v; intros; [apply P_value|apply ge_value].
  Qed.
  Lemma SW_value : forall e a, (a < nv)%nat -> bil n_e n_e SW e e a
      = glue n_s (bil G G G2 (e_of n_s n_x e) (e_of n_s n_x e))
          (fun i => x_of n_s X (bil G G G2 (e_of n_s n_x e) (e_of n_s n_x e)) i + bil n_s n_s Xss (s_shock n_s n_x n_e G1 e) (s_shock n_s n_x n_e G1 e) i) a.
  Proof.
    intros e a Ha. unfold SW, r_SW. rewrite (bil_above n_s n_x _ _ e e a Ha). apply (glue_ext n_s n_x); [intros; apply gee_value|intros b Hb|exact Ha].
    rewrite bil_add_coef, bil_comp, bil_of_lin. rewrite Rplus_comm. f_equal.
    - apply lin_ext_v. intros. apply gee_value.
    - apply bil_ext_v; intros; apply ge_value.
  Qed.
  Lemma gX_value : forall i, lin G G1 (HigherOrderAlgebra.stack3 n_s n_x zero Xtt zero) i = gX i.
  Proof.
    intros i. unfold G1, G. rewrite lin_stack3 by exact Hns.
    rewrite (lin_zero n_s (c_gs g1) zero), (lin_zero n_e (c_ge n_s n_x g1) zero) by reflexivity. unfold gX, r_gX, lin. ring.
  Qed.
  Lemma v2_shock_parts : forall e a, (a < N)%nat -> v2_shock n_s n_x n_e G1 G2 X Xss Xtt e a
      = glue n_s zero (glue n_x zero (bil n_e n_e SW e e)) a + glue n_s zero DW a.
  Proof.
    intros e a Ha. unfold v2_shock, stack4. rewrite <- glue_plus. apply (glue_ext n_s (n_x + (n_s + n_x))); [|intros b Hb|exact Ha].
    { intros. unfold zero. ring. }
    assert (E2 : forall i, s2_shock n_s n_x n_e G1 G2 Xtt e i = bil G G G2 (e_of n_s n_x e) (e_of n_s n_x e) i + gX i).
    { intros i. unfold s2_shock. fold G. rewrite gX_value. ring. }
    unfold DW, r_DW, above. fold gX. unfold glue at 3. unfold zero at 1.
    unfold glue at 1. destruct (Nat.ltb_spec b n_x); [ring|].
    assert (Hc : (b - n_x < nv)%nat) by (unfold nv; lia). set (c := (b - n_x)%nat) in *. rewrite SW_value by exact Hc.
    unfold glue. destruct (Nat.ltb_spec c n_s); [apply E2|].
    set (d := (c - n_s)%nat). unfold x_of. rewrite (lin_ext_v n_s X (s2_shock n_s n_x n_e G1 G2 Xtt e) (fun i => bil G G G2 (e_of n_s n_x e) (e_of n_s n_x e) i + gX i)) by (intros; apply E2).
    rewrite lin_plus. unfold lin at 2. unfold X. ring.
  Qed.

  Lemma lin_rsum : forall n q (B : nat -> nat -> nat -> R) u i,
      lin n (fun i j => rsum q (fun a => B a i j)) u i = rsum q (fun a => lin n (B a) u i).
  Proof.
    intros n q B u i. induction q as [|q IH].
    - cbn. unfold lin. apply rsum_0. intros. ring.
    - cbn [rsum]. rewrite <- IH. apply (lin_add_coef n (fun i j => rsum q (fun a => B a i j)) (B q)).
  Qed.
  Lemma lin_bil_1 : forall n a b (F : nat -> nat -> nat -> R) (W : nat -> nat -> R) (w : vector) u i,
      lin n (fun i j => rsum a (fun l => rsum b (fun k => F i l k * W l j * w k))) u i = bil a b F (lin n W u) w i.
  Proof.
    intros n a b F W w u i. rewrite (lin_rsum n a (fun l i j => rsum b (fun k => F i l k * W l j * w k))). apply rsum_ext. intros l _.
    rewrite (lin_rsum n b (fun k i j => F i l k * W l j * w k)). apply rsum_ext. intros k _. unfold lin.
    rewrite <- rsum_scal, <- rsum_scal_r. apply rsum_ext. intros. ring.
  Qed.

  Lemma Kee_value : forall h e i, (i < n_x)%nat -> tri n_s n_e n_e (r_Kee n_s n_x n_e g1 f2 g2 f3 X_s Xss) h e e i
      = tri N N N F3 (v_of n_s n_x n_e G1 X h) (v_shock n_s n_x n_e G1 X e) (v_shock n_s n_x n_e G1 X e) i
        + 2 * bil N N F2 (v_shock n_s n_x n_e G1 X e) (v_mixed n_s n_x n_e G1 G2 X Xss h e) i
        + bil N nv (fun i a b => at_ f2 [i; a; (nv + b)%nat]) (v_of n_s n_x n_e G1 X h) (bil n_e n_e SW e e) i.
  Proof.
    intros h e i Hi. unfold r_Kee. fold nv. replace (nv + nv)%nat with N by (unfold N, nv; lia). fold V Wl Wsl SW.
    rewrite !tri_add_coef, tri_scal_coef, tri_comp_111, tri_comp_21, tri_comp_12. f_equal; [f_equal|].
    - unfold v_shock, stack4. change (tri N N N F3) with (tri N (n_s + (n_x + (n_s + n_x))) (n_s + (n_x + (n_s + n_x))) F3). rewrite !tri_tail_2, !tri_tail_3. apply tri_ext.
      + intros j k l _ _ _. unfold F3, nv. rewrite <- !Nat.add_assoc. reflexivity.
      + intros. apply V_value. assumption.
      + intros. apply Wl_value. assumption.
      + intros. apply Wl_value. assumption.
    - f_equal. rewrite (bil_swap N F2) by (intros; apply Sf2; assumption). unfold v_shock, v_mixed, stack4, N. rewrite !bil_tail_1, !bil_tail_2. apply bil_ext.
      + intros j k _ _. unfold F2, nv. rewrite <- !Nat.add_assoc. reflexivity.
      + intros. apply Wsl_value. assumption.
      + intros. apply Wl_value. assumption.
    - apply bil_ext_v; [intros; apply V_value; assumption|reflexivity].
  Qed.

  Lemma K_value : forall h i, (i < n_x)%nat -> lin n_s (r_K n_s n_x n_e g1 f2 g2 f3 sigma X_s Xss Xtt) h i
      = mean M p (fun k => tri N N N F3 (v_of n_s n_x n_e G1 X h) (v_shock n_s n_x n_e G1 X (eps k)) (v_shock n_s n_x n_e G1 X (eps k))) i
        + 2 * mean M p (fun k => bil N N F2 (v_shock n_s n_x n_e G1 X (eps k)) (v_mixed n_s n_x n_e G1 G2 X Xss h (eps k))) i
        + bil N N F2 (v_of n_s n_x n_e G1 X h) (mean M p (fun k => v2_shock n_s n_x n_e G1 G2 X Xss Xtt (eps k))) i.
  Proof.
    intros h i Hi. unfold r_K. rewrite lin_add_coef.
    rewrite <- (mean_tri_covariance M n_s n_e p eps (fun k l => at_ sigma [k; l]) (r_Kee n_s n_x n_e g1 f2 g2 f3 X_s Xss) h i Hsh).
    rewrite (lin_bil_1 n_s _ _ (fun i a b => at_ f2 [i; a; (n_s + b)%nat]) (c_V n_s n_x g1 X_s)). fold V DW.
    rewrite (mean_ext M p _ (fun k i => (tri N N N F3 (v_of n_s n_x n_e G1 X h) (v_shock n_s n_x n_e G1 X (eps k)) (v_shock n_s n_x n_e G1 X (eps k)) i
        + 2 * bil N N F2 (v_shock n_s n_x n_e G1 X (eps k)) (v_mixed n_s n_x n_e G1 G2 X Xss h (eps k)) i)
        + bil N nv (fun i a b => at_ f2 [i; a; (nv + b)%nat]) (v_of n_s n_x n_e G1 X h) (bil n_e n_e SW (eps k) (eps k)) i) i)
      by (intros; apply Kee_value; exact Hi).
    rewrite (mean_plus M p (fun k i => tri N N N F3 (v_of n_s n_x n_e G1 X h) (v_shock n_s n_x n_e G1 X (eps k)) (v_shock n_s n_x n_e G1 X (eps k)) i
        + 2 * bil N N F2 (v_shock n_s n_x n_e G1 X (eps k)) (v_mixed n_s n_x n_e G1 G2 X Xss h (eps k)) i)
        (fun k => bil N nv (fun i a b => at_ f2 [i; a; (nv + b)%nat]) (v_of n_s n_x n_e G1 X h) (bil n_e n_e SW (eps k) (eps k)))).
    rewrite (mean_plus M p (fun k => tri N N N F3 (v_of n_s n_x n_e G1 X h) (v_shock n_s n_x n_e G1 X (eps k)) (v_shock n_s n_x n_e G1 X (eps k)))
        (fun k i => 2 * bil N N F2 (v_shock n_s n_x n_e G1 X (eps k)) (v_mixed n_s n_x n_e G1 G2 X Xss h (eps k)) i)).
    rewrite (mean_scal M p 2 (fun k => bil N N F2 (v_shock n_s n_x n_e G1 X (eps k)) (v_mixed n_s n_x n_e G1 G2 X Xss h (eps k)))).
    rewrite Rplus_assoc. f_equal. rewrite <- mean_bil_r.
    rewrite (mean_ext M p (fun k => bil N N F2 (v_of n_s n_x n_e G1 X h) (v2_shock n_s n_x n_e G1 G2 X Xss Xtt (eps k)))
      (fun k i => bil N nv (fun i a b => at_ f2 [i; a; (nv + b)%nat]) (v_of n_s n_x n_e G1 X h) (bil n_e n_e SW (eps k) (eps k)) i
                  + bil N (n_x + (n_s + n_x)) (fun i a b => at_ f2 [i; a; (n_s + b)%nat]) (v_of n_s n_x n_e G1 X h) DW i) i).
    - rewrite (mean_plus M p (fun k => bil N nv (fun i a b => at_ f2 [i; a; (nv + b)%nat]) (v_of n_s n_x n_e G1 X h) (bil n_e n_e SW (eps k) (eps k)))
        (fun _ => bil N (n_x + (n_s + n_x)) (fun i a b => at_ f2 [i; a; (n_s + b)%nat]) (v_of n_s n_x n_e G1 X h) DW)).
      f_equal. rewrite (mean_const M p (sh_mass _ _ _ _ _ Hsh)). replace (n_s + n_x + (n_s + n_x))%nat with N by (unfold N; lia).
      apply bil_ext_v; [intros; apply V_value; assumption|reflexivity].
    - intros k _. rewrite (bil_ext_v N N F2 _ _ (v_of n_s n_x n_e G1 X h) (fun a => glue n_s zero (glue n_x zero (bil n_e n_e SW (eps k) (eps k))) a + glue n_s zero DW a) i)
        by (reflexivity || (intros; apply v2_shock_parts; assumption)).
      rewrite bil_plus_r. unfold N at 2 4. rewrite !bil_tail_2. f_equal.
      apply bil_ext; [|reflexivity|reflexivity]. intros a b _ _. unfold F2, nv. rewrite <- Nat.add_assoc. reflexivity.
  Qed.

  Lemma L_value : forall h i, (i < n_s)%nat -> lin n_s (r_L n_s n_x n_e g2 g3 sigma X_s Xtt) h i
      = bil G G G2 (w_of n_s n_x X h) (HigherOrderAlgebra.stack3 n_s n_x zero Xtt zero) i
        + mean M p (fun k => tri G G G G3 (w_of n_s n_x X h) (e_of n_s n_x (eps k)) (e_of n_s n_x (eps k))) i.
  Proof.
    intros h i Hi. unfold r_L. rewrite !lin_add_coef, g2_wx by exact Hi. f_equal; [f_equal|].
    - rewrite (lin_rsum n_s n_x (fun a i j => at_ g2 [i; j; (n_s + a)%nat] * Xtt a)). unfold bil. rewrite rsum_swap. apply rsum_ext. intros a _.
      unfold lin. apply rsum_ext. intros. unfold g_sx. ring.
    - exact (lin_bil_1 n_s n_x n_x g_xx X Xtt h i).
    - set (A := fun i j k l => at_ g3 [i; j; (n_s + n_x + k)%nat; (n_s + n_x + l)%nat]
        + rsum n_x (fun a => rsum n_e (fun b => rsum n_e (fun c => at_ g3 [i; (n_s + a)%nat; (n_s + n_x + b)%nat; (n_s + n_x + c)%nat] * c_X X_s a j * eye b k * eye c l)))).
      etransitivity; [symmetry; exact (mean_tri_covariance M n_s n_e p eps (fun k l => at_ sigma [k; l]) A h i Hsh)|].
      apply mean_ext. intros k _. set (e := eps k). unfold A.
      rewrite tri_add_coef, (tri_comp_111 n_s n_e n_e n_x n_e n_e (fun i a b c => at_ g3 [i; (n_s + a)%nat; (n_s + n_x + b)%nat; (n_s + n_x + c)%nat])).
      rewrite (tri_ext_v G G G G3 (w_of n_s n_x X h) _ _ (fun j => aS h j + 1 * aX (lin n_s X h) j) (aE e) (aE e) i (fun j _ => w_parts h j)) by reflexivity.
      rewrite tri_plus_1, Rmult_1_l. unfold aS, aX, aE, G.
      rewrite !tri_head_1, !tri_tail_1, !tri_tail_2, !tri_tail_3, !tri_head_1. f_equal.
      + apply tri_ext; try reflexivity. intros j a b _ _ _. unfold G3. rewrite <- !Nat.add_assoc. reflexivity.
      + apply tri_ext; [|reflexivity|intros; apply lin_eye; assumption|intros; apply lin_eye; assumption].
        intros j a b _ _ _. unfold G3. rewrite <- !Nat.add_assoc. reflexivity.
  Qed.
  Lemma st_value : forall h i, (i < n_s)%nat -> st_of n_s n_x n_e G1 G2 G3 X Xtt Xstt M p eps h i
      = lin n_x gx (lin n_s Xstt h) i + lin n_s (r_L n_s n_x n_e g2 g3 sigma X_s Xtt) h i.
  Proof.
    intros h i Hi. unfold st_of. fold G. rewrite L_value by exact Hi. unfold G1. rewrite Rplus_assoc. f_equal.
    unfold G. rewrite lin_stack3 by exact Hns.
    rewrite (lin_zero n_s (c_gs g1) zero), (lin_zero n_e (c_ge n_s n_x g1) zero) by reflexivity. unfold gx. ring.
  Qed.

  Lemma M_value : forall h i, (i < n_x)%nat -> lin n_s (r_M n_s n_x n_e g1 g2 sigma X_s Xss Xtt Xsss) h i
      = (bil n_s n_s Xss (s_next n_s n_x n_e G1 X h) (s2_risk n_s n_x n_e G1 G2 Xtt M p eps) i
         + 2 * mean M p (fun k => bil n_s n_s Xss (s_shock n_s n_x n_e G1 (eps k)) (s_mixed n_s n_x n_e G2 X h (eps k))) i)
        + mean M p (fun k => tri n_s n_s n_s Xsss (s_next n_s n_x n_e G1 X h) (s_shock n_s n_x n_e G1 (eps k)) (s_shock n_s n_x n_e G1 (eps k))) i.
  Proof.
    intros h i Hi. unfold r_M. rewrite lin_add_coef.
    set (A := fun i j k l => rsum n_s (fun a => rsum n_s (fun b => rsum n_s (fun c => Xsss i a b c * c_P n_s n_x g1 X_s a j * c_ge n_s n_x g1 b k * c_ge n_s n_x g1 c l)))
        + 2 * rsum n_s (fun a => rsum n_s (fun b => Xss i a b * r_Vsl n_s n_x n_e g2 X_s a j k * c_ge n_s n_x g1 b l))).
    change (lin n_s (fun i j => rsum n_e (fun k => rsum n_e (fun l => A i j k l * at_ sigma [k; l]))) h i
      + lin n_s (fun i j => rsum n_s (fun a => rsum n_s (fun b => Xss i a b * P a j * (fun b => rsum n_e (fun k => rsum n_e (fun l => gee b k l * at_ sigma [k; l])) + gX b) b))) h i
      = (bil n_s n_s Xss (s_next n_s n_x n_e G1 X h) (s2_risk n_s n_x n_e G1 G2 Xtt M p eps) i
         + 2 * mean M p (fun k => bil n_s n_s Xss (s_shock n_s n_x n_e G1 (eps k)) (s_mixed n_s n_x n_e G2 X h (eps k))) i)
        + mean M p (fun k => tri n_s n_s n_s Xsss (s_next n_s n_x n_e G1 X h) (s_shock n_s n_x n_e G1 (eps k)) (s_shock n_s n_x n_e G1 (eps k))) i).
    rewrite <- (mean_tri_covariance M n_s n_e p eps (fun k l => at_ sigma [k; l]) A h i Hsh), lin_bil_1.
    assert (E1 : bil n_s n_s Xss (lin n_s P h) (fun b => rsum n_e (fun k => rsum n_e (fun l => gee b k l * at_ sigma [k; l])) + gX b) i
                 = bil n_s n_s Xss (s_next n_s n_x n_e G1 X h) (s2_risk n_s n_x n_e G1 G2 Xtt M p eps) i).
    { apply bil_ext_v; [intros; apply P_value|]. intros b _. unfold s2_risk. fold G. rewrite gX_value, Rplus_comm. f_equal.
      rewrite <- (mean_covariance M n_e p eps (fun k l => at_ sigma [k; l]) gee b Hsh). apply mean_ext. intros. apply gee_value. }
    rewrite E1.
    rewrite (mean_ext M p _ (fun k i => tri n_s n_s n_s Xsss (s_next n_s n_x n_e G1 X h) (s_shock n_s n_x n_e G1 (eps k)) (s_shock n_s n_x n_e G1 (eps k)) i
        + 2 * bil n_s n_s Xss (s_shock n_s n_x n_e G1 (eps k)) (s_mixed n_s n_x n_e G2 X h (eps k)) i) i).
    - rewrite (mean_plus M p (fun k => tri n_s n_s n_s Xsss (s_next n_s n_x n_e G1 X h) (s_shock n_s n_x n_e G1 (eps k)) (s_shock n_s n_x n_e G1 (eps k)))
        (fun k i => 2 * bil n_s n_s Xss (s_shock n_s n_x n_e G1 (eps k)) (s_mixed n_s n_x n_e G2 X h (eps k)) i)).
      rewrite (mean_scal M p 2 (fun k => bil n_s n_s Xss (s_shock n_s n_x n_e G1 (eps k)) (s_mixed n_s n_x n_e G2 X h (eps k)))). ring.
    - intros k _. unfold A. rewrite tri_add_coef, tri_scal_coef, tri_comp_111, tri_comp_21. f_equal.
      + apply tri_ext_v; intros; [apply P_value|apply ge_value|apply ge_value].
      + f_equal. rewrite (bil_swap n_s Xss) by (intros; apply SX; assumption). apply bil_ext_v; intros; [apply ge_value|apply Vsl_value; assumption].
  Qed.

  Hypothesis Heqt : forall i j, (i < n_x)%nat -> (j < n_s)%nat ->
      rsum n_x (fun c => c_A n_s n_x f1 g1 X_s i c * Xstt c j) + rsum n_x (fun c => fX i c * rsum n_s (fun l => Xstt c l * P l j))
      + r_D n_s n_x n_e f1 g1 f2 g2 f3 g3 sigma X_s Xss Xtt Xsss i j = 0.

  Lemma chain_condition_stt : condition_stt n_s n_x n_e F1 G1 F2 G2 F3 G3 X Xss Xsss Xtt Xstt M p eps.
  Proof.
    intros h i Hi. unfold F1. rewrite lin_stack4 by (exact 0%nat || exact Hns). fold F1. rewrite (lin_zero n_s (fun i j => at_ f1 [i; j]) zero) by reflexivity.
    set (u := lin n_s Xstt h). set (St := st_of n_s n_x n_e G1 G2 G3 X Xtt Xstt M p eps h). set (sn := s_next n_s n_x n_e G1 X h).
    set (rM := lin n_s (r_M n_s n_x n_e g1 g2 sigma X_s Xss Xtt Xsss) h). set (rL := lin n_s (r_L n_s n_x n_e g2 g3 sigma X_s Xtt) h).
    assert (EQ : lin n_x (c_A n_s n_x f1 g1 X_s) u i + lin n_x fX (lin n_s Xstt sn) i
                 + (lin n_s (r_K n_s n_x n_e g1 f2 g2 f3 sigma X_s Xss Xtt) h i + lin n_s L rL i + lin n_x fX rM i) = 0).
    { transitivity (lin n_s (fun i j => rsum n_x (fun c => c_A n_s n_x f1 g1 X_s i c * Xstt c j) + rsum n_x (fun c => fX i c * rsum n_s (fun l => Xstt c l * P l j))
        + r_D n_s n_x n_e f1 g1 f2 g2 f3 g3 sigma X_s Xss Xtt Xsss i j) h i).
      - unfold r_D. rewrite !lin_add_coef, !lin_comp. f_equal. f_equal. apply lin_ext_v. intros c _. rewrite (lin_comp n_s n_s Xstt P). apply lin_ext_v. intros. symmetry. apply P_value.
      - apply rsum_0. intros j Hj. rewrite Heqt by assumption. ring. }
    rewrite K_value in EQ by exact Hi.
    assert (EL : lin n_s L St i = lin n_s L (lin n_x gx u) i + lin n_s L rL i).
    { rewrite <- lin_plus. apply lin_ext_v. intros. apply st_value. assumption. }
    unfold L in EL, EQ. rewrite lin_L in EL. rewrite lin_A in EQ. fold L in EL, EQ.
    rewrite (lin_ext_v n_x (c_fX n_s n_x f1) _ (fun c => (lin n_s X St c + rM c) + lin n_s Xstt sn c) i).
    - rewrite (lin_plus n_x (c_fX n_s n_x f1) (fun c => lin n_s X St c + rM c) (lin n_s Xstt sn)), (lin_plus n_x (c_fX n_s n_x f1) (lin n_s X St) rM).
      unfold X at 1. unfold fX, gx in *. fold N. lra.
    - intros c Hc. unfold rM. rewrite M_value by exact Hc. fold sn. unfold x_of. ring.
  Qed.
End Chain3.

(** ** Third-order expansions are second-order ones *)
Lemma total_ge : forall n u j, (j < n)%nat -> Rabs (u j) <= total n u.
Proof.
  intros n u j Hj. unfold total. replace n with (j + S (n - S j))%nat by lia. rewrite rsum_split, rsum_head, Nat.add_0_r.
  assert (0 <= rsum j (fun j => Rabs (u j))) by (apply rsum_nonneg; intros; apply Rabs_pos).
  assert (0 <= rsum (n - S j) (fun i => Rabs (u (j + S i)%nat))) by (apply rsum_nonneg; intros; apply Rabs_pos). lra.
Qed.
Lemma total_nonneg : forall n u, 0 <= total n u.
Proof. intros. apply rsum_nonneg. intros. apply Rabs_pos. Qed.
Lemma tri_bound : forall n A u i, Rabs (tri n n n A u u u i)
    <= rsum n (fun j => rsum n (fun k => rsum n (fun l => Rabs (A i j k l)))) * total n u ^ 3.
Proof.
  intros n A u i. unfold tri. rewrite <- rsum_scal_r. eapply Rle_trans; [apply rsum_abs|]. apply rsum_le. intros j Hj.
  rewrite <- rsum_scal_r. eapply Rle_trans; [apply rsum_abs|]. apply rsum_le. intros k Hk.
  rewrite <- rsum_scal_r. eapply Rle_trans; [apply rsum_abs|]. apply rsum_le. intros l Hl.
  rewrite !Rabs_mult, !Rmult_assoc. apply Rmult_le_compat_l; [apply Rabs_pos|]. replace (total n u ^ 3) with (total n u * (total n u * total n u)) by ring.
  pose proof (total_ge n u j Hj). pose proof (total_ge n u k Hk). pose proof (total_ge n u l Hl). pose proof (Rabs_pos (u j)). pose proof (Rabs_pos (u k)). pose proof (Rabs_pos (u l)).
  apply Rmult_le_compat; [lra|apply Rmult_le_pos; lra|lra|]. apply Rmult_le_compat; lra.
Qed.
Lemma expands3_2 : forall n m f A1 A2 A3, expands3 n m f A1 A2 A3 -> expands2 n m f A1 A2.
Proof.
  intros n m f A1 A2 A3 (K & d & Hd & H).
  set (C := rsum m (fun i => rsum n (fun j => rsum n (fun k => rsum n (fun l => Rabs (A3 i j k l)))))).
  exists (Rabs K * (INR n * d) + C), d. split; [exact Hd|]. intros u Hu i Hi. specialize (H u Hu i Hi).
  assert (HT : total n u <= INR n * d) by (unfold total; rewrite <- rsum_const; apply rsum_le; exact Hu).
  pose proof (total_nonneg n u) as H0. assert (H3 : 0 <= total n u ^ 3) by (apply pow_le; exact H0).
  pose proof (tri_bound n A3 u i) as HB.
  assert (HC : rsum n (fun j => rsum n (fun k => rsum n (fun l => Rabs (A3 i j k l)))) <= C).
  { unfold C. set (a := fun i => rsum n (fun j => rsum n (fun k => rsum n (fun l => Rabs (A3 i j k l))))). 
    assert (Ha : forall i, 0 <= a i) by (intros; unfold a; repeat (apply rsum_nonneg; intros); apply Rabs_pos).
    change (a i <= rsum m a). replace m with (i + S (m - S i))%nat by lia. rewrite rsum_split, rsum_head, Nat.add_0_r.
    assert (0 <= rsum i a) by (apply rsum_nonneg; intros; apply Ha).
    assert (0 <= rsum (m - S i) (fun j => a (i + S j)%nat)) by (apply rsum_nonneg; intros; apply Ha). lra. }
  replace (f u i - poly2 n A1 A2 u i) with ((f u i - poly3 n A1 A2 A3 u i) + / 6 * tri n n n A3 u u u i) by (unfold poly3; ring).
  eapply Rle_trans; [apply Rabs_triang|]. rewrite Rabs_mult, (Rabs_pos_eq (/ 6)) by lra.
  assert (E1 : K * total n u ^ 4 <= Rabs K * (INR n * d) * total n u ^ 3).
  { replace (total n u ^ 4) with (total n u * total n u ^ 3) by ring. rewrite <- Rmult_assoc. apply Rmult_le_compat_r; [exact H3|].
    apply Rle_trans with (Rabs K * total n u); [apply Rmult_le_compat_r; [exact H0|apply Rle_abs]|apply Rmult_le_compat_l; [apply Rabs_pos|exact HT]]. }
  assert (E2 : rsum n (fun j => rsum n (fun k => rsum n (fun l => Rabs (A3 i j k l)))) * total n u ^ 3 <= C * total n u ^ 3) by (apply Rmult_le_compat_r; [exact H3|exact HC]).
  pose proof (Rabs_pos (tri n n n A3 u u u i)). lra.
Qed.

Section Final.
  Variable qz : nat -> matR -> matR -> ext -> res (matR * matR * matR * matR).
  Variable solve : nat -> matR -> (nat -> R) -> res (nat -> R).
  Hypothesis HE : exact_solver solve.

  (** With one state, and a transition whose second derivatives do not mix the state and the controls, the
      residuals are of order four. *)
  Theorem order3_one_state : forall n_x n_e (f g : vector -> vector) f0 g0 f1 g1 f2 g2 f3 g3 sigma sol M p eps,
      schur_routine 1 n_x f1 g1 qz ->
      shape f1 = [n_x; (1 + n_x + (1 + n_x))%nat] -> shape f2 = [n_x; (1 + n_x + (1 + n_x))%nat; (1 + n_x + (1 + n_x))%nat] ->
      shape f3 = [n_x; (1 + n_x + (1 + n_x))%nat; (1 + n_x + (1 + n_x))%nat; (1 + n_x + (1 + n_x))%nat] ->
      shape g1 = [1; 1 + n_x + n_e]%nat -> shape g2 = [1; 1 + n_x + n_e; 1 + n_x + n_e]%nat ->
      shape g3 = [1; 1 + n_x + n_e; 1 + n_x + n_e; 1 + n_x + n_e]%nat ->
      shape sigma = [n_e; n_e] ->
      expands3 (1 + n_x + (1 + n_x)) n_x f (coef2 f1) (coef3 f2) (coef4 f3) ->
      expands3 (1 + n_x + n_e) 1 g (coef2 g1) (coef3 g2) (coef4 g3) ->
      symmetric2 n_x (1 + n_x + (1 + n_x)) (coef3 f2) -> symmetric3 n_x (1 + n_x + (1 + n_x)) (coef4 f3) ->
      symmetric2 1 (1 + n_x + n_e) (coef3 g2) -> symmetric3 1 (1 + n_x + n_e) (coef4 g3) ->
      states_controls_separate 1 n_x (coef3 g2) ->
      shocks M n_e p eps (coef2 sigma) -> unskewed M n_e p eps ->
      state_perturb qz solve [f0; f1; f2; f3] [g0; g1; g2; g3] sigma = Ok sol ->
      exists X_s X_ss X_sss X_tt X_stt, sol = Order3 X_s X_ss X_sss X_tt X_stt /\
        accurate 4 1 n_x M p eps f g (rule3 1 (coef2 X_s) (coef3 X_ss) (coef4 X_sss) (vec_of X_tt) (coef2 X_stt)).
  Proof.
    intros n_x n_e f g f0 g0 f1 g1 f2 g2 f3 g3 sigma sol M p eps HQZ Hf1 Hf2 Hf3 Hg1 Hg2 Hg3 Hsig Ef Eg Sf2 Sf3 Sg2 Sg3 Hsep Hsh Hsk H.
    destruct (order3_accurate2 qz solve HE 1 n_x n_e f g f0 g0 f1 g1 f2 g2 f3 g3 sigma sol M p eps HQZ Hf1 Hf2 Hg1 Hg2 Hsig
      (expands3_2 _ _ _ _ _ _ Ef) (expands3_2 _ _ _ _ _ _ Eg) Sg2 Hsh H) as (X_s & X_ss & X_sss & X_tt & X_stt & -> & _ & A3).
    exists X_s, X_ss, X_sss, X_tt, X_stt. split; [reflexivity|].
    unfold state_perturb in H. cbn [length Nat.eqb negb] in H.
    rewrite Hf1, Hg1, dims_recovered in H. rewrite (proj2 (Nat.ltb_ge (1 + n_x) n_x)) in H by lia.
    replace (1 + n_x - n_x)%nat with 1%nat in H by lia. replace (1 + n_x + n_e - n_x - 1)%nat with n_e in H by lia.
    destruct (first_order qz solve 1 n_x f1 g1) as [Y|e] eqn:E1; cbn [bind] in H; [|discriminate].
    destruct (first_order_solves qz solve HE 1 n_x f1 g1 HQZ Y E1) as (Hns & Hnx & Hs & Hl).
    destruct (second_order solve 1 n_x f1 g1 f2 g2 sigma Y) as [so|e] eqn:E2; cbn [bind] in H; [|discriminate].
    pose proof (second_order_equations solve HE 1 n_x n_e f1 g1 f2 g2 sigma Y Hns Hf1 Hg1 Hf2 Hg2 Hsig Hs so E2) as HQ.
    pose proof (is3_self _ _ _ _ (e_Xss _ _ _ _ _ _ _ _ _ _ HQ)) as HXss.
    assert (HXtt : is1 (so_Xtt so) n_x (fun i => at_ (so_Xtt so) [i])) by (split; [exact (e_Xtt _ _ _ _ _ _ _ _ _ _ HQ)|reflexivity]).
    destruct (third_states_run solve 1 n_x n_e f1 g1 f2 g2 f3 g3 Y Hf1 Hg1 Hf2 Hg2 Hf3 Hg3 Hs _ so
      (e_V13 _ _ _ _ _ _ _ _ _ _ HQ) (e_V1 _ _ _ _ _ _ _ _ _ _ HQ) (e_K2 _ _ _ _ _ _ _ _ _ _ HQ) (e_L _ _ _ _ _ _ _ _ _ _ HQ) HXss) as (B & D & ES & HB & HD).
    rewrite ES in H. destruct (solve_sylvester solve (to_mat (so_A so)) (to_mat B) (to_mat (so_V13 so)) D) as [Y3|e] eqn:E3; cbn [bind] in H; [|discriminate].
    destruct (sylvester4 _ _ _ _ _ _ _ _ _ _ _ _ HE Hns (e_A _ _ _ _ _ _ _ _ _ _ HQ) HB (e_V13 _ _ _ _ _ _ _ _ _ _ HQ) HD E3) as (HY3 & Hq3).
    destruct (third_risk_run solve 1 n_x n_e f1 g1 f2 g2 f3 g3 sigma Y Hf1 Hg1 Hf2 Hg2 Hf3 Hg3 Hsig Hs _ _ so
      (e_V13 _ _ _ _ _ _ _ _ _ _ HQ) (e_V1 _ _ _ _ _ _ _ _ _ _ HQ) (e_L _ _ _ _ _ _ _ _ _ _ HQ) HXss HXtt _ Y3 HY3) as (B' & D' & ER & HB' & HD').
    rewrite ER in H. destruct (solve_sylvester solve (to_mat (so_A so)) (to_mat B') (to_mat (so_V13 so)) D') as [Yt|e] eqn:Et; cbn [bind] in H; [|discriminate].
    destruct (sylvester2 _ _ _ _ _ _ _ _ _ _ _ _ HE Hns (e_A _ _ _ _ _ _ _ _ _ _ HQ) HB' (e_V13 _ _ _ _ _ _ _ _ _ _ HQ) HD' Et) as (HYt & Hqt).
    apply Ok_inj in H. injection H as -> <- -> <- ->.
    assert (A1 : (1 + n_x + (1 + n_x) = 1 + (n_x + (1 + n_x)))%nat) by lia.
    assert (A2 : (1 + n_x + n_e = 1 + (n_x + n_e))%nat) by lia.
    rewrite A1 in Ef, Sf2, Sf3. rewrite A2 in Eg, Sg2, Sg3.
    assert (SX : symmetric2 n_x 1 (coef3 (so_Xss so))) by (intros i j k _ Hj Hk; assert (j = 0)%nat as -> by lia; assert (k = 0)%nat as -> by lia; reflexivity).
    assert (SX3 : symmetric3 n_x 1 (coef4 X_sss)).
    { intros i j k l _ Hj Hk Hl0. assert (j = 0)%nat as -> by lia. assert (k = 0)%nat as -> by lia. assert (l = 0)%nat as -> by lia. split; reflexivity. }
    refine (third_order_accurate_gen 1 n_x n_e (coef2 f1) (coef2 g1) (coef3 f2) (coef3 g2) (coef4 f3) (coef4 g3) (coef2 X_s) (coef3 (so_Xss so)) (coef4 X_sss)
      (vec_of (so_Xtt so)) (coef2 X_stt) M p eps (sh_mass _ _ _ _ _ Hsh) (sh_mean _ _ _ _ _ Hsh) Hsk Sf2 Sg2 SX Sf3 Sg3 SX3 f g Ef Eg A3 _ _).
    - refine (chain_condition3 1 n_x n_e f1 g1 f2 g2 f3 g3 X_s Hns (coef3 (so_Xss so)) (coef4 X_sss) Sf2 Sg2 Sg3 Hsep _ Hq3).
      intros h i Hi. unfold bil, lin, d_XV2. cbn. unfold c_X. ring.
    - exact (chain_condition_stt 1 n_x n_e f1 g1 f2 g2 f3 g3 sigma X_s Hns (coef3 (so_Xss so)) (vec_of (so_Xtt so)) (coef4 X_sss) (coef2 X_stt) Sf2 SX M p eps Hsh Hqt).
  Qed.
End Final.
