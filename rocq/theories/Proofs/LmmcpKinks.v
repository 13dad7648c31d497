From Coq Require Import Reals Arith Lia Lra Psatz String.
From Verif.Base Require Import Prelude Sums Norms Ext.
From Verif.Model Require Import Complementarity Lmmcp.
From Verif.Spec Require Import Complementarity Subdifferential.
From Verif.Proofs Require Import FischerBurmeister NewtonProofs LmmcpProofs LmmcpFinal.
Open Scope R_scope.

Lemma rsum_unit : forall n (f : nat -> R) j, (j < n)%nat -> rsum n (fun k => f k * (if Nat.eqb k j then 1 else 0)) = f j.
Proof.
  intros n f j. induction n as [|n IH]; intros Hj; [lia|]. cbn [rsum].
  destruct (Nat.eq_dec j n) as [->|Hne].
  - rewrite Nat.eqb_refl.
    assert (E : rsum n (fun k => f k * (if Nat.eqb k n then 1 else 0)) = 0).
    { clear. assert (G : forall m, (m <= n)%nat -> rsum m (fun k => f k * (if Nat.eqb k n then 1 else 0)) = 0).
      { induction m as [|m IHm]; intros Hm; [reflexivity|]. cbn [rsum]. rewrite IHm by lia.
        destruct (Nat.eqb_spec m n); [lia|]. ring. }
      apply G; lia. }
    rewrite E. ring.
  - rewrite IH by lia. destruct (Nat.eqb_spec n j); [lia|]. ring.
Qed.

Section Kink.
  Variables (n r : nat) (F : (nat -> R) -> nat -> R) (DF : (nat -> R) -> nat -> nat -> R) (x z : nat -> R).
  Hypothesis Hr : (r < n)%nat.
  Hypothesis Hext : forall u v, (forall i, (i < n)%nat -> u i = v i) -> forall i, (i < n)%nat -> F u i = F v i.
  Hypothesis Hs : smooth_at n F DF x.
  Hypothesis Hz : z r = 1.
  Hypothesis Hz1 : forall i, (i < n)%nat -> Rabs (z i) <= 1.
  Hypothesis HF : F x r = 0.
  Variable sigma : R.
  Hypothesis Hsig : sigma * sigma = 1.
  Let dz := rsum n (fun k => DF x r k * z k).
  Let nu (q : R) := 1 / sqrt (1 + q ^ 2).

  Lemma nu_pos : forall q, 0 < sqrt (1 + q ^ 2).
  Proof. intros q. apply sqrt_lt_R0. pose proof (pow2_ge_0 q). lra. Qed.

  Lemma nu_le : forall q, Rabs (nu q) <= 1 /\ Rabs (q * nu q) <= 1.
  Proof.
    intros q. unfold nu. pose proof (nu_pos q) as P. pose proof (pow2_ge_0 q).
    pose proof (sqrt_sqrt (1 + q ^ 2) ltac:(lra)) as S2.
    assert (1 <= sqrt (1 + q ^ 2)) by nra.
    assert (Rabs q <= sqrt (1 + q ^ 2)).
    { apply Rsqr_incr_0_var; [|lra]. rewrite <- Rsqr_abs. unfold Rsqr. rewrite S2. lra. }
    split.
    - rewrite Rabs_right; [|apply Rle_ge; apply Rlt_le; apply Rdiv_lt_0_compat; lra].
      apply (Rmult_le_reg_r (sqrt (1 + q ^ 2))); [lra|]. field_simplify; lra.
    - rewrite Rabs_mult. rewrite (Rabs_right (1 / _)); [|apply Rle_ge; apply Rlt_le; apply Rdiv_lt_0_compat; lra].
      apply (Rmult_le_reg_r (sqrt (1 + q ^ 2))); [lra|]. field_simplify; lra.
  Qed.

  Lemma nu_cont : forall q0 eps, 0 < eps -> exists d, 0 < d /\ forall q, Rabs (q - q0) < d ->
      Rabs (nu q - nu q0) < eps /\ Rabs (q * nu q - q0 * nu q0) < eps.
  Proof.
    intros q0 eps He.
    assert (Cn : continuity_pt nu q0).
    { unfold nu. apply (continuity_pt_div (fun _ => 1) (fun q => sqrt (1 + q ^ 2))).
      - apply continuity_pt_const. intros a b; reflexivity.
      - apply (continuity_pt_comp (fun q => 1 + q ^ 2) sqrt).
        + apply derivable_continuous_pt. reg.
        + apply continuity_pt_sqrt. pose proof (pow2_ge_0 q0). lra.
      - pose proof (nu_pos q0). lra. }
    assert (Cm : continuity_pt (fun q => q * nu q) q0).
    { apply (continuity_pt_mult (fun q => q) nu); [apply derivable_continuous_pt; reg|exact Cn]. }
    destruct (Cn eps He) as (d1 & P1 & H1). destruct (Cm eps He) as (d2 & P2 & H2).
    exists (Rmin d1 d2). split; [apply Rmin_pos; assumption|]. intros q Hq.
    pose proof (Rmin_l d1 d2). pose proof (Rmin_r d1 d2).
    destruct (Req_dec q q0) as [->|Hne].
    - rewrite !Rminus_diag_eq by reflexivity. rewrite Rabs_R0. split; assumption.
    - split.
      + apply (H1 q). split; [split; [exact I|congruence]|]. cbn. unfold R_dist. lra.
      + apply (H2 q). split; [split; [exact I|congruence]|]. cbn. unfold R_dist. lra.
  Qed.

  (** The row of the matrix at the kink. *)
  Definition kink_row (j : nat) : R :=
    lambda1 * ((sigma * nu dz - 1) * (if Nat.eqb r j then 1 else 0) + (sigma * (dz * nu dz) - 1) * DF x r j).

  Lemma kink_limit' : forall eps, 0 < eps -> exists y g', close n eps x y /\ Rabs (F y r) < eps /\
    gradient_at n (fun y => - lambda1 * sigma * PhiFB (sigma * (y r - x r)) (sigma * F y r)) y g' /\
    forall j, (j < n)%nat -> Rabs (g' j - kink_row j) < eps.
  Proof.
    intros eps Heps. destruct Hs as ((d0 & Hd0 & Hdiff) & Hcont).
    assert (Sig : Rabs sigma = 1).
    { assert (Hsq : Rabs sigma * Rabs sigma = 1) by (rewrite <- Rabs_mult, Hsig; apply Rabs_R1).
      pose proof (Rabs_pos sigma). nra. }
    set (B := rsum n (fun j => Rabs (DF x r j))).
    assert (HB : forall j, (j < n)%nat -> Rabs (DF x r j) <= B).
    { intros j Hj. unfold B. clear -Hj. induction n as [|m IH]; [lia|]. cbn [rsum].
      assert (0 <= rsum m (fun j => Rabs (DF x r j))) by (apply rsum_nonneg; intros; apply Rabs_pos).
      destruct (Nat.eq_dec j m) as [->|]; [lra|]. specialize (IH ltac:(lia)). pose proof (Rabs_pos (DF x r m)). lra. }
    assert (B0 : 0 <= B) by (pose proof (HB r Hr); pose proof (Rabs_pos (DF x r r)); lra).
    set (eta := Rmin 1 (eps / (B + 5))).
    assert (Heta : 0 < eta) by (apply Rmin_pos; [lra|apply Rdiv_lt_0_compat; lra]).
    assert (Eta1 : eta <= 1) by apply Rmin_l.
    assert (Eta2 : eta * (B + 5) <= eps).
    { pose proof (Rmin_r 1 (eps / (B + 5))) as Hm. fold eta in Hm.
      apply (Rmult_le_compat_r (B + 5)) in Hm; [|lra]. unfold Rdiv in Hm. rewrite Rmult_assoc, Rinv_l in Hm by lra. lra. }
    destruct (nu_cont dz eta Heta) as (d1 & Hd1 & Hnu).
    destruct (Hcont eta Heta) as (d2 & Hd2 & HD).
    pose proof (Hdiff x ltac:(intros i Hi; rewrite Rminus_diag_eq by reflexivity; rewrite Rabs_R0; exact Hd0) z r Hr) as Dz.
    destruct (Dz d1 Hd1) as (d3 & H3).
    set (e1 := eps / (Rabs dz + d1 + 1)).
    assert (Hden : 0 < Rabs dz + d1 + 1) by (pose proof (Rabs_pos dz); lra).
    assert (He1 : 0 < e1) by (apply Rdiv_lt_0_compat; lra).
    assert (He1' : e1 * (Rabs dz + d1 + 1) = eps) by (unfold e1; field; lra).
    assert (He1l : e1 <= eps) by (pose proof (Rabs_pos dz); nra).
    set (t := / 2 * Rmin (Rmin d0 d2) (Rmin d3 e1)).
    assert (Ht : 0 < t).
    { unfold t. apply Rmult_lt_0_compat; [lra|]. repeat apply Rmin_pos; try assumption. apply cond_pos. }
    assert (Ht' : t < d0 /\ t < d2 /\ t < d3 /\ t < e1).
    { pose proof (Rmin_l (Rmin d0 d2) (Rmin d3 e1)). pose proof (Rmin_r (Rmin d0 d2) (Rmin d3 e1)).
      pose proof (Rmin_l d0 d2). pose proof (Rmin_r d0 d2). pose proof (Rmin_l d3 e1). pose proof (Rmin_r d3 e1).
      unfold t in *. lra. }
    set (y := fun k => x k + t * z k).
    assert (Hclose : forall d, t < d -> close n d x y).
    { intros d Hd i Hi. unfold y. replace (x i + t * z i - x i) with (t * z i) by ring.
      rewrite Rabs_mult, (Rabs_right t) by lra. pose proof (Hz1 i Hi). pose proof (Rabs_pos (z i)). nra. }
    set (q := F y r / t).
    assert (Hq : Rabs (q - dz) < d1).
    { specialize (H3 t ltac:(lra) ltac:(rewrite Rabs_right by lra; lra)). cbv beta in H3.
      replace (F (fun k => x k + (0 + t) * z k) r) with (F y r) in H3.
      2:{ apply Hext; [|exact Hr]. intros i Hi. unfold y. ring. }
      replace (F (fun k => x k + 0 * z k) r) with (F x r) in H3.
      2:{ apply Hext; [|exact Hr]. intros i Hi. ring. }
      rewrite HF, Rminus_0_r in H3. exact H3. }
    destruct (Hnu q Hq) as [Hn1 Hn2].
    assert (Fq : F y r = t * q) by (unfold q; field; lra).
    assert (Sq : sqrt ((sigma * (y r - x r)) ^ 2 + (sigma * F y r) ^ 2) = t * sqrt (1 + q ^ 2)).
    { unfold y. rewrite Hz. fold y. rewrite Fq.
      replace ((sigma * (x r + t * 1 - x r)) ^ 2 + (sigma * (t * q)) ^ 2) with ((t * t) * (1 + q ^ 2)).
      2:{ replace ((sigma * (x r + t * 1 - x r)) ^ 2 + (sigma * (t * q)) ^ 2)
            with ((sigma * sigma) * ((t * t) * (1 + q ^ 2))) by ring. rewrite Hsig. ring. }
      rewrite sqrt_mult by (pose proof (pow2_ge_0 q); nra). rewrite sqrt_square by lra. reflexivity. }
    pose proof (nu_pos q) as Np.
    set (g' := fun j => lambda1 * ((sigma * nu q - 1) * (if Nat.eqb r j then 1 else 0)
                          + (sigma * (q * nu q) - 1) * DF y r j)).
    exists y, g'. split; [apply Hclose; lra|]. split.
    { rewrite Fq, Rabs_mult, (Rabs_right t) by lra.
      assert (Rabs q < Rabs dz + d1).
      { replace q with ((q - dz) + dz) by ring. eapply Rle_lt_trans; [apply Rabs_triang|]. lra. }
      pose proof (Rabs_pos q). pose proof (Rabs_pos dz). rewrite <- He1'. apply Rmult_le_0_lt_compat; lra. }
    split.
    - intros j Hj.
      pose proof (Hdiff y (Hclose d0 ltac:(lra)) (fun k => if Nat.eqb k j then 1 else 0) r Hr) as Dj.
      cbv beta in Dj. rewrite (rsum_unit n (fun k => DF y r k) j Hj) in Dj.
      assert (Dj' : derivable_pt_lim (fun h => sigma * F (moved y j h) r) 0 (sigma * DF y r j)).
      { eapply derivable_ext'; [| |apply (derivable_pt_lim_scal _ sigma _ _ Dj)]; [|reflexivity].
        intros h. unfold mult_real_fct. f_equal. apply Hext; [|exact Hr]. intros k Hk. unfold moved.
        destruct (Nat.eqb k j); ring. }
      assert (Xj : derivable_pt_lim (fun h => sigma * (moved y j h r - x r)) 0 (sigma * (if Nat.eqb r j then 1 else 0))).
      { unfold moved. destruct (Nat.eqb r j).
        - eapply derivable_ext'; [| |apply (derivable_pt_lim_scal _ sigma _ _ (derivable_pt_lim_plus _ _ _ _ _
            (derivable_pt_lim_const (y r - x r) 0) (derivable_pt_lim_id 0)))].
          + intros h. unfold mult_real_fct, plus_fct, fct_cte, id. ring.
          + ring.
        - eapply derivable_ext'; [| |apply (derivable_pt_lim_const (sigma * (y r - x r)) 0)].
          + intros h. unfold fct_cte. ring.
          + ring. }
      assert (M0 : forall k, moved y j 0 k = y k) by (intros k; unfold moved; destruct (Nat.eqb k j); ring).
      assert (F0 : F (moved y j 0) r = F y r) by (apply Hext; [intros; apply M0|exact Hr]).
      assert (NZ : sqrt ((sigma * (moved y j 0 r - x r)) ^ 2 + (sigma * F (moved y j 0) r) ^ 2) <> 0).
      { rewrite M0, F0, Sq. nra. }
      pose proof (PhiFB_curve _ _ 0 _ _ Xj Dj' NZ) as HP. cbv beta in HP. rewrite M0, F0, Sq in HP.
      eapply derivable_ext'; [| |apply (derivable_pt_lim_scal _ (- lambda1 * sigma) _ _ HP)]; [intros; reflexivity|].
      assert (Yr : y r - x r = t) by (unfold y; rewrite Hz; ring). rewrite Yr, Fq.
      unfold g', nu.
      replace (- lambda1 * sigma * ((1 - sigma * t / (t * sqrt (1 + q ^ 2))) * (sigma * (if Nat.eqb r j then 1 else 0)) +
        (1 - sigma * (t * q) / (t * sqrt (1 + q ^ 2))) * (sigma * DF y r j)))
        with (- lambda1 * (sigma * sigma) * ((1 - sigma * (1 / sqrt (1 + q ^ 2))) * (if Nat.eqb r j then 1 else 0) +
        (1 - sigma * (q * (1 / sqrt (1 + q ^ 2)))) * DF y r j)).
      + rewrite Hsig. ring.
      + field. split; lra.
    - intros j Hj. unfold g', kink_row. specialize (HD y (Hclose d2 ltac:(lra)) r j Hr Hj).
      specialize (HB j Hj). destruct (nu_le q) as [_ L2].
      set (e := if Nat.eqb r j then 1 else 0).
      replace (lambda1 * ((sigma * nu q - 1) * e + (sigma * (q * nu q) - 1) * DF y r j) -
        lambda1 * ((sigma * nu dz - 1) * e + (sigma * (dz * nu dz) - 1) * DF x r j))
        with (lambda1 * (sigma * (nu q - nu dz) * e + sigma * (q * nu q - dz * nu dz) * DF x r j
                + (sigma * (q * nu q) - 1) * (DF y r j - DF x r j))) by ring.
      rewrite Rabs_mult. rewrite (Rabs_right lambda1) by (unfold lambda1; lra).
      assert (E1 : Rabs (sigma * (nu q - nu dz) * e) <= eta).
      { rewrite !Rabs_mult, Sig. unfold e. destruct (Nat.eqb r j); [rewrite Rabs_R1|rewrite Rabs_R0];
          pose proof (Rabs_pos (nu q - nu dz)); nra. }
      assert (E2 : Rabs (sigma * (q * nu q - dz * nu dz) * DF x r j) <= eta * B).
      { rewrite Rabs_mult, Rabs_mult, Sig, Rmult_1_l. apply Rmult_le_compat; try apply Rabs_pos; lra. }
      assert (E3 : Rabs ((sigma * (q * nu q) - 1) * (DF y r j - DF x r j)) <= 2 * eta).
      { rewrite Rabs_mult. apply Rmult_le_compat; try apply Rabs_pos; [|lra].
        eapply Rle_trans; [apply Rabs_triang|]. rewrite Rabs_Ropp, Rabs_R1, Rabs_mult, Sig. lra. }
      assert (E : Rabs (sigma * (nu q - nu dz) * e + sigma * (q * nu q - dz * nu dz) * DF x r j
                + (sigma * (q * nu q) - 1) * (DF y r j - DF x r j)) <= eta * (B + 3)).
      { eapply Rle_trans; [apply Rabs_triang|]. eapply Rle_trans; [apply Rplus_le_compat_r; apply Rabs_triang|]. lra. }
      unfold lambda1. assert (0 < eta * B + eta) by nra. nra.
  Qed.

  Lemma kink_limit :
    limit_of_gradients n (fun y => - lambda1 * sigma * PhiFB (sigma * (y r - x r)) (sigma * F y r)) x kink_row.
  Proof.
    intros eps Heps. destruct (kink_limit' eps Heps) as (y & g' & H1 & _ & H2 & H3).
    exists y, g'. split; [exact H1|]. split; [exact H2|exact H3].
  Qed.
End Kink.

Lemma gradient_limit : forall n f x g, gradient_at n f x g -> limit_of_gradients n f x g.
Proof.
  intros n f x g H eps He. exists x, g. split; [|split; [exact H|]]; intros i Hi;
    rewrite Rminus_diag_eq by reflexivity; rewrite Rabs_R0; exact He.
Qed.

Lemma limit_ext : forall n f f' x g g', (forall y, f y = f' y) -> (forall j, (j < n)%nat -> g j = g' j) ->
  limit_of_gradients n f x g -> limit_of_gradients n f' x g'.
Proof.
  intros n f f' x g g' Hf Hg H eps He. destruct (H eps He) as (y & h & H1 & H2 & H3). exists y, h. split; [exact H1|]. split.
  - intros j Hj. eapply derivable_ext'; [|reflexivity|apply (H2 j Hj)]. intros; apply Hf.
  - intros j Hj. rewrite <- Hg by exact Hj. apply H3; exact Hj.
Qed.

Lemma zvec_le1 : forall l u x f, Rabs (zvec l u x f) <= 1.
Proof. intros. unfold zvec. destruct (_ || _)%bool; [rewrite Rabs_R1|rewrite Rabs_R0]; lra. Qed.

Section Rows.
  Variables (nan : R) (o : lm_opts) (n : nat) (F : (nat -> R) -> nat -> R) (DF : (nat -> R) -> nat -> nat -> R).
  Variables (lb ub : nat -> ext) (x : nat -> R) (i : nat).
  Hypothesis Hi : (i < n)%nat.
  Hypothesis Hok : bounds_ok (Big o) (lb i) (ub i).
  Hypothesis Hext : forall u v, (forall i, (i < n)%nat -> u i = v i) -> forall i, (i < n)%nat -> F u i = F v i.
  Hypothesis Hs : smooth_at n F DF x.

  Lemma partial_F : forall j, (j < n)%nat -> derivable_pt_lim (fun h => F (moved x j h) i) 0 (DF x i j).
  Proof.
    intros j Hj. destruct Hs as ((d & Hd & H) & _).
    pose proof (H x ltac:(intros k Hk; rewrite Rminus_diag_eq by reflexivity; rewrite Rabs_R0; exact Hd)
      (fun k => if Nat.eqb k j then 1 else 0) i Hi) as Dj. cbv beta in Dj. rewrite (rsum_unit n (fun k => DF x i k) j Hj) in Dj.
    eapply derivable_ext'; [|reflexivity|exact Dj]. intros h. apply Hext; [|exact Hi]. intros k Hk. unfold moved.
    destruct (Nat.eqb k j); ring.
  Qed.

  Lemma partial_x : forall j, derivable_pt_lim (fun h => moved x j h i) 0 (if Nat.eqb i j then 1 else 0).
  Proof.
    intros j. unfold moved. destruct (Nat.eqb i j).
    - eapply derivable_ext'; [| |apply derivable_pt_lim_plus; [apply (derivable_pt_lim_const (x i))|apply derivable_pt_lim_id]];
      [intros; reflexivity|ring].
    - apply derivable_pt_lim_const.
  Qed.

  Lemma moved0 : forall j, moved x j 0 i = x i /\ F (moved x j 0) i = F x i.
  Proof.
    intros j. assert (forall k, moved x j 0 k = x k) by (intros k; unfold moved; destruct (Nat.eqb k j); ring).
    split; [apply H|]. apply Hext; [intros; apply H|exact Hi].
  Qed.

  Let phi1 (y : nat -> R) := Phi nan o n F lb ub y i.
  Let phi2 (y : nat -> R) := Phi nan o n F lb ub y (n + i)%nat.
  Let dphi1 (j : nat) := DPhi nan o n F DF lb ub x i j.
  Let dphi2 (j : nat) := DPhi nan o n F DF lb ub x (n + i)%nat j.

  Lemma phi1_eq : forall y, phi1 y = Phi_first nan (indexset (Big o) (lb i) (ub i)) (lb i) (ub i) (y i) (F y i).
  Proof. intros y. unfold phi1, Phi, Phi3MCPPFB, ind. destruct (Nat.ltb_spec i n); [reflexivity|lia]. Qed.
  Lemma phi2_eq : forall y, phi2 y = Phi_second nan (indexset (Big o) (lb i) (ub i)) (lb i) (ub i) (y i) (F y i).
  Proof.
    intros y. unfold phi2, Phi, Phi3MCPPFB, ind. destruct (Nat.ltb_spec (n + i) n); [lia|].
    replace (n + i - n)%nat with i by lia. reflexivity.
  Qed.

  Lemma rows_away : away (lb i) (ub i) (x i) (F x i) ->
    gradient_at n phi1 x dphi1 /\ gradient_at n phi2 x dphi2.
  Proof.
    intros Haw. split; intros j Hj; destruct (moved0 j) as [X0 F0].
    - pose proof (first_deriv nan (Big o) (lb i) (ub i) _ _ _ _ Hok (partial_x j) (partial_F j Hj)
        ltac:(cbv beta; rewrite X0, F0; exact Haw) (zvec (lb i) (ub i) (x i) (F x i))
        (rsum n (fun k => DF x i k * zvec (lb k) (ub k) (x k) (F x k)))) as H1. cbv beta in H1.
      rewrite X0, F0 in H1. unfold dphi1, DPhi, DPhi3MCPPFB, ind. destruct (Nat.ltb_spec i n); [|lia].
      destruct (DPhi_ab _ _ _ _ _ _ _ _) as [da db].
      eapply derivable_ext'; [intros h; symmetry; apply phi1_eq|reflexivity|exact H1].
    - pose proof (second_deriv nan (Big o) (lb i) (ub i) _ _ _ _ Hok (partial_x j) (partial_F j Hj)
        ltac:(cbv beta; rewrite X0, F0; exact Haw)) as H1. cbv beta in H1. rewrite X0, F0 in H1.
      unfold dphi2, DPhi, DPhi3MCPPFB, ind. destruct (Nat.ltb_spec (n + i) n); [lia|].
      replace (n + i - n)%nat with i by lia.
      eapply derivable_ext'; [intros h; symmetry; apply phi2_eq|reflexivity|exact H1].
  Qed.

  Lemma rows_free : lower_cut (Big o) (lb i) = MInf -> upper_cut (Big o) (ub i) = PInf ->
    gradient_at n phi1 x dphi1 /\ gradient_at n phi2 x dphi2.
  Proof.
    intros El Eu. pose proof (indexset_cases _ _ _ Hok) as Hc. rewrite El, Eu in Hc.
    assert (E0 : indexset (Big o) (lb i) (ub i) = 0%nat) by (destruct (indexset _ _ _) as [|[|[|[|]]]]; tauto).
    split; intros j Hj.
    - unfold dphi1, DPhi, DPhi3MCPPFB, ind. destruct (Nat.ltb_spec i n); [|lia]. rewrite E0. cbn [DPhi_ab].
      eapply derivable_ext'; [| |apply (derivable_pt_lim_scal _ (- lambda1) _ _ (partial_F j Hj))].
      + intros h. rewrite phi1_eq, E0. reflexivity.
      + ring.
    - unfold dphi2, DPhi, DPhi3MCPPFB, ind. destruct (Nat.ltb_spec (n + i) n); [lia|].
      replace (n + i - n)%nat with i by lia. rewrite E0. cbn [DPhi_H2].
      eapply derivable_ext'; [| |apply (derivable_pt_lim_scal _ (- lambda2) _ _ (partial_F j Hj))].
      + intros h. rewrite phi2_eq, E0. reflexivity.
      + ring.
  Qed.

  Lemma max_prod_flat : forall (X G : R -> R) e D, derivable_pt_lim X 0 e -> derivable_pt_lim G 0 D -> X 0 = 0 -> G 0 = 0 ->
    derivable_pt_lim (fun h => Rmax 0 (X h) * Rmax 0 (G h)) 0 0.
  Proof.
    intros X G e D HX HG X0 G0 eps He.
    destruct (HX 1 ltac:(lra)) as (d1 & H1).
    assert (HGc : continuity_pt G 0) by (apply derivable_continuous_pt; exists D; exact HG).
    assert (Hk : 0 < eps / (Rabs e + 1)) by (apply Rdiv_lt_0_compat; [lra|pose proof (Rabs_pos e); lra]).
    destruct (HGc _ Hk) as (d2 & P2 & H2).
    exists (mkposreal _ (Rmin_pos _ _ (cond_pos d1) P2)). cbn. intros h Hh Hlt.
    pose proof (Rmin_l d1 d2). pose proof (Rmin_r d1 d2).
    specialize (H1 h Hh ltac:(lra)). rewrite Rplus_0_l, X0, Rminus_0_r in *.
    assert (Hg : Rabs (G h) < eps / (Rabs e + 1)).
    { specialize (H2 h). cbn in H2. unfold R_dist in H2. rewrite G0, !Rminus_0_r in H2. apply H2. split; [|lra].
      split; [exact I|congruence]. }
    rewrite (Rmax_left 0 0) by lra. rewrite Rmult_0_l, ?Rminus_0_r.
    assert (Hx : Rabs (X h / h) < Rabs e + 1).
    { replace (X h / h) with ((X h / h - e) + e) by ring. eapply Rle_lt_trans; [apply Rabs_triang|]. lra. }
    assert (M : forall a, Rabs (Rmax 0 a) <= Rabs a).
    { intros a. unfold Rmax. destruct (Rle_dec 0 a); [lra|]. rewrite Rabs_R0. apply Rabs_pos. }
    replace (Rmax 0 (X h) * Rmax 0 (G h) / h) with (Rmax 0 (X h) / h * Rmax 0 (G h)) by (field; exact Hh).
    rewrite Rabs_mult.
    assert (L1 : Rabs (Rmax 0 (X h) / h) <= Rabs (X h / h)).
    { unfold Rdiv. rewrite !Rabs_mult. apply Rmult_le_compat_r; [apply Rabs_pos|apply M]. }
    pose proof (M (G h)). pose proof (Rabs_pos (Rmax 0 (X h) / h)). pose proof (Rabs_pos (Rmax 0 (G h))).
    pose proof (Rabs_pos e).
    assert (Fin' : (Rabs e + 1) * (eps / (Rabs e + 1)) = eps) by (field; lra).
    apply Rle_lt_trans with ((Rabs e + 1) * Rabs (Rmax 0 (G h))); [apply Rmult_le_compat_r; lra|].
    apply Rlt_le_trans with ((Rabs e + 1) * (eps / (Rabs e + 1))); [apply Rmult_lt_compat_l; lra|lra].
  Qed.

  Lemma dz_denom : forall q, Rmax dnull (sqrt (1 ^ 2 + q ^ 2)) = sqrt (1 + q ^ 2).
  Proof.
    intros q. replace (1 ^ 2) with 1 by ring. apply Rmax_right. unfold dnull.
    assert (1 <= sqrt (1 + q ^ 2)); [|lra]. rewrite <- sqrt_1 at 1. apply sqrt_le_1_alt. pose proof (pow2_ge_0 q). lra.
  Qed.

  Lemma near_refl : forall a, near (Fin a) a = true.
  Proof. intros a. unfold near, dnull. rewrite Rminus_diag_eq by reflexivity. rewrite Rabs_R0. destruct (Rle_dec _ _); [reflexivity|lra]. Qed.
  Lemma small_0 : small 0 = true.
  Proof. unfold small, dnull. rewrite Rabs_R0. destruct (Rle_dec _ _); [reflexivity|lra]. Qed.

  Lemma rows_lower : lower_cut (Big o) (lb i) = Fin (x i) -> upper_cut (Big o) (ub i) = PInf -> F x i = 0 ->
    limit_of_gradients n phi1 x dphi1 /\ gradient_at n phi2 x dphi2.
  Proof.
    intros El Eu HF0. pose proof (indexset_cases _ _ _ Hok) as Hc. rewrite El, Eu in Hc.
    assert (E1 : indexset (Big o) (lb i) (ub i) = 1%nat /\ lb i = Fin (x i))
      by (destruct (indexset _ _ _) as [|[|[|[|]]]]; tauto).
    destruct E1 as [E1 Elb].
    assert (Zi : zvec (lb i) (ub i) (x i) (F x i) = 1).
    { unfold zvec, beta_l. rewrite Elb, HF0, near_refl, small_0. reflexivity. }
    split.
    - pose proof (kink_limit n i F DF x (fun k => zvec (lb k) (ub k) (x k) (F x k)) Hi Hext Hs Zi
        ltac:(intros; apply zvec_le1) HF0 1 ltac:(ring)) as K.
      eapply limit_ext; [| |exact K].
      + intros y. rewrite phi1_eq, E1, Elb, Phi_first_1. rewrite !Rmult_1_l. ring.
      + intros j Hj. unfold kink_row, dphi1, DPhi, DPhi3MCPPFB, ind. destruct (Nat.ltb_spec i n); [|lia].
        rewrite E1, Zi. unfold DPhi_ab. rewrite dz_denom.
        unfold beta_l. rewrite HF0. replace (near (lb i) (x i)) with true by (rewrite Elb; symmetry; apply near_refl).
        rewrite small_0. cbn [andb]. cbv beta. unfold Rdiv. ring.
    - intros j Hj. destruct (moved0 j) as [X0 F0].
      unfold dphi2, DPhi, DPhi3MCPPFB, ind. destruct (Nat.ltb_spec (n + i) n); [lia|].
      replace (n + i - n)%nat with i by lia. rewrite E1. unfold DPhi_H2. rewrite HF0, Elb. cbn [fin].
      assert (HXl : derivable_pt_lim (fun h => moved x j h i - x i) 0 (if Nat.eqb i j then 1 else 0)).
      { eapply derivable_ext'; [| |apply derivable_pt_lim_minus; [exact (partial_x j)|apply (derivable_pt_lim_const (x i))]];
        [intros; reflexivity|ring]. }
      pose proof (max_prod_flat _ _ _ _ HXl (partial_F j Hj) ltac:(cbv beta; rewrite X0; ring) ltac:(cbv beta; rewrite F0; exact HF0)) as M.
      eapply derivable_ext'; [| |apply (derivable_pt_lim_scal _ lambda2 _ _ M)].
      + intros h. rewrite phi2_eq, E1, Elb. unfold mult_real_fct, Phi_second. cbn [fin]. ring.
      + destruct (alpha_l _ _ _); ring.
  Qed.

  Lemma rows_upper : lower_cut (Big o) (lb i) = MInf -> upper_cut (Big o) (ub i) = Fin (x i) -> F x i = 0 ->
    limit_of_gradients n phi1 x dphi1 /\ gradient_at n phi2 x dphi2.
  Proof.
    intros El Eu HF0. pose proof (indexset_cases _ _ _ Hok) as Hc. rewrite El, Eu in Hc.
    assert (E1 : indexset (Big o) (lb i) (ub i) = 2%nat /\ ub i = Fin (x i))
      by (destruct (indexset _ _ _) as [|[|[|[|]]]]; tauto).
    destruct E1 as [E1 Eub].
    assert (Zi : zvec (lb i) (ub i) (x i) (F x i) = 1).
    { unfold zvec, beta_u. rewrite Eub, HF0, near_refl, small_0. rewrite Bool.orb_true_r. reflexivity. }
    split.
    - pose proof (kink_limit n i F DF x (fun k => zvec (lb k) (ub k) (x k) (F x k)) Hi Hext Hs Zi
        ltac:(intros; apply zvec_le1) HF0 (-1) ltac:(ring)) as K.
      eapply limit_ext; [| |exact K].
      + intros y. rewrite phi1_eq, E1, Eub, Phi_first_2.
        replace (-1 * (y i - x i)) with (x i - y i) by ring. replace (-1 * F y i) with (- F y i) by ring. ring.
      + intros j Hj. unfold kink_row, dphi1, DPhi, DPhi3MCPPFB, ind. destruct (Nat.ltb_spec i n); [|lia].
        rewrite E1, Zi. unfold DPhi_ab. rewrite dz_denom.
        unfold beta_u. rewrite HF0. replace (near (ub i) (x i)) with true by (rewrite Eub; symmetry; apply near_refl).
        rewrite small_0. cbn [andb]. cbv beta. unfold Rdiv. ring.
    - intros j Hj. destruct (moved0 j) as [X0 F0].
      unfold dphi2, DPhi, DPhi3MCPPFB, ind. destruct (Nat.ltb_spec (n + i) n); [lia|].
      replace (n + i - n)%nat with i by lia. rewrite E1. unfold DPhi_H2. rewrite HF0, Eub. cbn [fin].
      assert (HXl : derivable_pt_lim (fun h => x i - moved x j h i) 0 (- (if Nat.eqb i j then 1 else 0))).
      { eapply derivable_ext'; [| |apply derivable_pt_lim_minus; [apply (derivable_pt_lim_const (x i))|exact (partial_x j)]];
        [intros; reflexivity|ring]. }
      pose proof (derivable_pt_lim_opp _ _ _ (partial_F j Hj)) as HFm.
      pose proof (max_prod_flat _ _ _ _ HXl HFm ltac:(cbv beta; rewrite X0; ring)
        ltac:(unfold opp_fct; cbv beta; rewrite F0, HF0; ring)) as M.
      eapply derivable_ext'; [| |apply (derivable_pt_lim_scal _ lambda2 _ _ M)].
      + intros h. rewrite phi2_eq, E1, Eub. unfold mult_real_fct, Phi_second, opp_fct. cbn [fin]. ring.
      + destruct (alpha_u _ _ _); ring.
  Qed.
End Rows.

(** Conditions on a component: without bound, away from the kinks, or exactly on the kink of its only bound. *)
Lemma rows_limit : forall nan o n F DF lb ub x i, (i < n)%nat -> bounds_ok (Big o) (lb i) (ub i) ->
  (forall u v, (forall i, (i < n)%nat -> u i = v i) -> forall i, (i < n)%nat -> F u i = F v i) ->
  smooth_at n F DF x ->
  let l := lower_cut (Big o) (lb i) in let u := upper_cut (Big o) (ub i) in
  (away_from_kinks (1 / 100000000) (lb i) (ub i) (x i) (F x i)) \/ (l = MInf /\ u = PInf) \/
  (l = Fin (x i) /\ u = PInf /\ F x i = 0) \/ (l = MInf /\ u = Fin (x i) /\ F x i = 0) ->
  limit_of_gradients n (fun y => Phi nan o n F lb ub y i) x (DPhi nan o n F DF lb ub x i) /\
  limit_of_gradients n (fun y => Phi nan o n F lb ub y (n + i)%nat) x (DPhi nan o n F DF lb ub x (n + i)%nat).
Proof.
  intros nan o n F DF lb ub x i Hi Hok Hext Hs l u [H|[[Hl Hu]|[(Hl & Hu & HF)|(Hl & Hu & HF)]]].
  - destruct (rows_away nan o n F DF lb ub x i Hi Hok Hext Hs H). split; apply gradient_limit; assumption.
  - destruct (rows_free nan o n F DF lb ub x i Hi Hok Hext Hs Hl Hu). split; apply gradient_limit; assumption.
  - destruct (rows_lower nan o n F DF lb ub x i Hi Hok Hext Hs Hl Hu HF). split; [assumption|apply gradient_limit; assumption].
  - destruct (rows_upper nan o n F DF lb ub x i Hi Hok Hext Hs Hl Hu HF). split; [assumption|apply gradient_limit; assumption].
Qed.
