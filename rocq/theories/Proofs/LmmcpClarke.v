From Coq Require Import Reals Arith Lia Lra Psatz String.
From Verif.Base Require Import Prelude Sums Norms Ext.
From Verif.Model Require Import Complementarity Lmmcp.
From Verif.Spec Require Import Complementarity Subdifferential.
From Verif.Proofs Require Import FischerBurmeister NewtonProofs LmmcpProofs LmmcpFinal LmmcpKinks.
Open Scope R_scope.

Lemma abs_le_sum : forall n (f : nat -> R) j, (j < n)%nat -> Rabs (f j) <= rsum n (fun j => Rabs (f j)).
Proof.
  intros n f j. induction n as [|m IH]; intros Hj; [lia|]. cbn [rsum].
  assert (0 <= rsum m (fun j => Rabs (f j))) by (apply rsum_nonneg; intros; apply Rabs_pos).
  destruct (Nat.eq_dec j m) as [->|]; [lra|]. specialize (IH ltac:(lia)). pose proof (Rabs_pos (f m)). lra.
Qed.

(** Two finite bounds, on the kink of the upper one. *)
Section UpperTwo.
  Variables (nan : R) (o : lm_opts) (n : nat) (F : (nat -> R) -> nat -> R) (DF : (nat -> R) -> nat -> nat -> R).
  Variables (lb ub : nat -> ext) (x : nat -> R) (i : nat) (l : R).
  Hypothesis Hi : (i < n)%nat.
  Hypothesis Hok : bounds_ok (Big o) (lb i) (ub i).
  Hypothesis Hext : forall u v, (forall i, (i < n)%nat -> u i = v i) -> forall i, (i < n)%nat -> F u i = F v i.
  Hypothesis Hs : smooth_at n F DF x.
  Hypothesis El : lower_cut (Big o) (lb i) = Fin l.
  Hypothesis Eu : upper_cut (Big o) (ub i) = Fin (x i).
  Hypothesis Hl : dnull < x i - l.
  Hypothesis HF0 : F x i = 0.

  Lemma two_index : indexset (Big o) (lb i) (ub i) = 3%nat /\ lb i = Fin l /\ ub i = Fin (x i).
  Proof.
    pose proof (indexset_cases _ _ _ Hok) as Hc. rewrite El, Eu in Hc.
    destruct (indexset _ _ _) as [|[|[|[|]]]]; tauto.
  Qed.

  Lemma rows_upper_two :
    limit_of_gradients n (fun y => Phi nan o n F lb ub y i) x (DPhi nan o n F DF lb ub x i).
  Proof.
    destruct two_index as (E1 & Elb & Eub). pose proof dnull_pos as Dp.
    assert (Zi : zvec (lb i) (ub i) (x i) (F x i) = 1).
    { unfold zvec, beta_u. rewrite Eub, HF0, near_refl, small_0. rewrite Bool.orb_true_r. reflexivity. }
    assert (Bl : beta_l (lb i) (x i) 0 = false).
    { unfold beta_l, near. rewrite Elb. rewrite Rabs_right by lra. destruct (Rle_dec _ _); [lra|reflexivity]. }
    assert (Bu : beta_u (ub i) (x i) 0 = true) by (unfold beta_u; rewrite Eub, near_refl, small_0; reflexivity).
    set (zz := fun k => zvec (lb k) (ub k) (x k) (F x k)).
      set (a0 := x i - l) in *.
      intros eps Heps.
      set (row := kink_row n i DF x zz (-1)).
      set (B := rsum n (fun j => Rabs (row j))).
      assert (HB : forall j, (j < n)%nat -> Rabs (row j) <= B) by (intros j Hj; apply abs_le_sum; exact Hj).
      assert (B0 : 0 <= B) by (pose proof (HB i Hi); pose proof (Rabs_pos (row i)); lra).
      set (e1 := Rmin (Rmin 1 (a0 / 2)) (eps / (2 + (10 / a0) * (B + 2)))).
      assert (Ha0 : 0 < a0) by lra.
      assert (Hk : 0 < 10 / a0) by (apply Rdiv_lt_0_compat; lra).
      assert (Hden : 0 < 2 + 10 / a0 * (B + 2)) by nra.
      assert (He1 : 0 < e1).
      { unfold e1. repeat apply Rmin_pos; try lra. apply Rdiv_lt_0_compat; lra. }
      assert (L1 : e1 <= 1 /\ e1 <= a0 / 2 /\ e1 <= eps / (2 + 10 / a0 * (B + 2))).
      { unfold e1. pose proof (Rmin_l (Rmin 1 (a0 / 2)) (eps / (2 + (10 / a0) * (B + 2)))).
        pose proof (Rmin_r (Rmin 1 (a0 / 2)) (eps / (2 + (10 / a0) * (B + 2)))).
        pose proof (Rmin_l 1 (a0 / 2)). pose proof (Rmin_r 1 (a0 / 2)). lra. }
      destruct L1 as (L1 & L2 & L3).
      assert (L4 : e1 * (2 + 10 / a0 * (B + 2)) <= eps).
      { apply (Rmult_le_compat_r (2 + 10 / a0 * (B + 2))) in L3; [|lra].
        replace (eps / (2 + 10 / a0 * (B + 2)) * (2 + 10 / a0 * (B + 2))) with eps in L3 by (field; split; lra). lra. }
      destruct (kink_limit' n i F DF x zz Hi Hext Hs Zi ltac:(intros; apply zvec_le1) HF0 (-1) ltac:(ring) e1 He1)
        as (y & g' & Hy & HFy & Hg & Hrow).
      fold row in Hrow.
      set (p := fun y : nat -> R => - PhiFB (x i - y i) (- F y i)).
      assert (Hgp : gradient_at n p y (fun j => - / lambda1 * g' j)).
      { intros j Hj. eapply derivable_ext'; [| |apply (derivable_pt_lim_scal _ (- / lambda1) _ _ (Hg j Hj))]; [|reflexivity].
        intros h. unfold mult_real_fct, p.
        replace (-1 * (moved y j h i - x i)) with (x i - moved y j h i) by ring.
        replace (-1 * F (moved y j h) i) with (- F (moved y j h) i) by ring. unfold lambda1. field. }
      assert (Hyi : a0 / 2 <= y i - l).
      { pose proof (Hy i Hi) as Hc. unfold a0 in *. unfold Rabs in Hc. destruct (Rcase_abs _); lra. }
      assert (Hp : Rabs (p y) <= 4 * e1).
      { unfold p. rewrite Rabs_Ropp. unfold PhiFB.
        pose proof (Hy i Hi) as Hc. set (a := x i - y i). set (b := - F y i).
        assert (Ha : Rabs a < e1) by (unfold a; rewrite Rabs_minus_sym; exact Hc).
        assert (Hb : Rabs b < e1) by (unfold b; rewrite Rabs_Ropp; exact HFy).
        assert (Hsq : 0 <= sqrt (a ^ 2 + b ^ 2) <= 2 * e1).
        { split; [apply sqrt_pos|]. rewrite <- (sqrt_square (2 * e1)) by lra. apply sqrt_le_1_alt.
          assert (a ^ 2 <= e1 * e1) by (rewrite <- Rsqr_pow2, Rsqr_abs; unfold Rsqr; pose proof (Rabs_pos a); nra).
          assert (b ^ 2 <= e1 * e1) by (rewrite <- Rsqr_pow2, Rsqr_abs; unfold Rsqr; pose proof (Rabs_pos b); nra). nra. }
        unfold Rabs in *. destruct (Rcase_abs a), (Rcase_abs b), (Rcase_abs (a + b - sqrt (a ^ 2 + b ^ 2))); lra. }
      set (D := sqrt ((y i - l) ^ 2 + p y ^ 2)).
      assert (HD : a0 / 2 <= D /\ Rabs (p y) <= D /\ y i - l <= D /\ D <= (y i - l) + Rabs (p y)).
      { unfold D. pose proof (sqrt_ge_l (y i - l) (p y)). pose proof (sqrt_ge_abs (p y) (y i - l)) as Hq.
        rewrite (Rplus_comm (p y ^ 2)) in Hq. repeat split; try lra.
        rewrite <- (sqrt_square (y i - l + Rabs (p y))) by (pose proof (Rabs_pos (p y)); lra).
        apply sqrt_le_1_alt. assert (p y ^ 2 = Rabs (p y) * Rabs (p y)) by (rewrite <- Rsqr_pow2, Rsqr_abs; reflexivity).
        pose proof (Rabs_pos (p y)). nra. }
      destruct HD as (HD1 & HD2 & HD3 & HD4).
      set (G := fun j => - lambda1 * ((1 - (y i - l) / D) * (if Nat.eqb i j then 1 else 0) + (1 - p y / D) * (- / lambda1 * g' j))).
      exists y, G. split; [|split].
      + intros k Hk'. eapply Rlt_le_trans; [apply (Hy k Hk')|].
        assert (0 <= 10 / a0 * (B + 2)) by (apply Rmult_le_pos; lra). nra.
      + intros j Hj. destruct (moved0 n F y i Hi Hext j) as [X0 F0].
        assert (HXl : derivable_pt_lim (fun h => moved y j h i - l) 0 (if Nat.eqb i j then 1 else 0)).
        { eapply derivable_ext'; [| |apply derivable_pt_lim_minus; [exact (partial_x y i j)|apply (derivable_pt_lim_const l)]];
          [intros; reflexivity|ring]. }
        assert (P0 : p (moved y j 0) = p y) by (unfold p; rewrite X0, F0; reflexivity).
        pose proof (PhiFB_curve _ _ 0 _ _ HXl (Hgp j Hj)) as HC. cbv beta in HC. rewrite X0, P0 in HC.
        fold D in HC. specialize (HC ltac:(lra)).
        eapply derivable_ext'; [| |apply (derivable_pt_lim_scal _ (- lambda1) _ _ HC)]; [|reflexivity].
        intros h. unfold mult_real_fct, p. unfold Phi, Phi3MCPPFB, ind. destruct (Nat.ltb_spec i n); [|lia].
        rewrite E1, Elb, Eub, Phi_first_3. reflexivity.
      + intros j Hj.
        assert (ED : DPhi nan o n F DF lb ub x i j = row j).
        { unfold row, kink_row, DPhi, DPhi3MCPPFB, ind. destruct (Nat.ltb_spec i n); [|lia].
          rewrite E1, Zi. unfold DPhi_ab. rewrite dz_denom. rewrite HF0, Bl, Bu. rewrite Elb, Eub. cbn [fin]. cbv beta iota zeta.
          fold zz. set (dz := rsum n (fun k => DF x i k * zz k)).
          replace (- x i + x i + 0 + sqrt ((x i - x i) ^ 2 + 0 ^ 2)) with 0.
          2:{ replace ((x i - x i) ^ 2 + 0 ^ 2) with 0 by ring. rewrite sqrt_0. ring. }
          fold a0. replace (a0 ^ 2 + 0 ^ 2) with (a0 * a0) by ring. rewrite sqrt_square by lra.
          rewrite (Rmax_right dnull a0) by lra.
          change (rsum n (fun k => DF x i k * zvec (lb k) (ub k) (x k) (F x k))) with dz.
          pose proof (nu_pos dz). field. split; lra. }
        rewrite ED. unfold G.
        replace (- lambda1 * ((1 - (y i - l) / D) * (if Nat.eqb i j then 1 else 0) + (1 - p y / D) * (- / lambda1 * g' j)) - row j)
          with (- (lambda1 * ((1 - (y i - l) / D) * (if Nat.eqb i j then 1 else 0))) + (g' j - row j) + - (p y / D * (g' j - row j) + p y / D * row j)).
        2:{ unfold lambda1. field. lra. }
        assert (K1 : Rabs (p y / D) <= 8 / a0 * e1).
        { unfold Rdiv at 1. rewrite Rabs_mult, Rabs_inv. rewrite (Rabs_right D) by lra.
          apply (Rmult_le_reg_r D); [lra|]. rewrite Rmult_assoc, Rinv_l, Rmult_1_r by lra.
          apply Rle_trans with (8 / a0 * e1 * (a0 / 2)); [|apply Rmult_le_compat_l; [|lra]].
          - replace (8 / a0 * e1 * (a0 / 2)) with (4 * e1) by (field; lra). exact Hp.
          - apply Rmult_le_pos; [|lra]. apply Rlt_le. apply Rdiv_lt_0_compat; lra. }
        assert (K2 : Rabs ((1 - (y i - l) / D) * (if Nat.eqb i j then 1 else 0)) <= 8 / a0 * e1).
        { assert (0 <= 1 - (y i - l) / D <= 8 / a0 * e1).
          { split.
            - apply (Rmult_le_reg_r D); [lra|]. field_simplify; lra.
            - apply (Rmult_le_reg_r D); [lra|].
              replace ((1 - (y i - l) / D) * D) with (D - (y i - l)) by (field; lra).
              apply Rle_trans with (8 / a0 * e1 * (a0 / 2)); [|apply Rmult_le_compat_l; [|lra]].
              + replace (8 / a0 * e1 * (a0 / 2)) with (4 * e1) by (field; lra). lra.
              + apply Rmult_le_pos; [|lra]. apply Rlt_le. apply Rdiv_lt_0_compat; lra. }
          rewrite Rabs_mult. destruct (Nat.eqb i j); [rewrite Rabs_R1|rewrite Rabs_R0]; rewrite Rabs_right by lra; lra. }
        specialize (Hrow j Hj). specialize (HB j Hj).
        assert (T1 : Rabs (- (lambda1 * ((1 - (y i - l) / D) * (if Nat.eqb i j then 1 else 0)))) <= 8 / a0 * e1).
        { rewrite Rabs_Ropp, Rabs_mult. rewrite (Rabs_right lambda1) by (unfold lambda1; lra). unfold lambda1.
          pose proof (Rabs_pos ((1 - (y i - l) / D) * (if Nat.eqb i j then 1 else 0))). lra. }
        assert (T2 : Rabs (- (p y / D * (g' j - row j) + p y / D * row j)) <= 8 / a0 * e1 * (B + 1)).
        { rewrite Rabs_Ropp. eapply Rle_trans; [apply Rabs_triang|]. rewrite !Rabs_mult.
          pose proof (Rabs_pos (p y / D)). pose proof (Rabs_pos (row j)). pose proof (Rabs_pos (g' j - row j)).
          apply Rle_trans with (Rabs (p y / D) * (B + 1)); [nra|]. apply Rmult_le_compat_r; lra. }
        eapply Rle_lt_trans; [apply Rabs_triang|]. eapply Rle_lt_trans; [apply Rplus_le_compat_r; apply Rabs_triang|].
        replace (8 / a0) with (8 / 10 * (10 / a0)) in * by (field; lra).
        assert (0 < 10 / a0 * e1) by nra.
        assert (10 / a0 * e1 * (B + 2) + 2 * e1 <= eps) by lra.
        nra.
  Qed.
End UpperTwo.
