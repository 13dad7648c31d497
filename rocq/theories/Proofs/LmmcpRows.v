From Coq Require Import Reals Arith Lia Lra Psatz String.
From Verif.Base Require Import Prelude Sums Norms Ext.
From Verif.Model Require Import Complementarity Lmmcp.
From Verif.Spec Require Import Complementarity Subdifferential.
From Verif.Proofs Require Import FischerBurmeister NewtonProofs LmmcpProofs LmmcpFinal LmmcpKinks LmmcpClarke LmmcpTerms.
Open Scope R_scope.

Lemma gg_ext : forall n f f' x g g', (forall y, f y = f' y) -> (forall j, (j < n)%nat -> g j = g' j) ->
  generalised_gradient n f x g -> generalised_gradient n f' x g'.
Proof.
  intros n f f' x g g' Hf Hg H. revert g' Hg. induction H as [g H|c g1 g2 g Hc H1 IH1 H2 IH2 H]; intros g' Hg.
  - apply gg_limit. eapply limit_ext; eassumption.
  - eapply (gg_mix n f' x c g1 g2); [exact Hc|apply IH1; reflexivity|apply IH2; reflexivity|].
    intros j Hj. rewrite <- Hg by exact Hj. apply H; exact Hj.
Qed.

Ltac rd := match goal with |- context [Rle_dec ?a ?b] => destruct (Rle_dec a b) end.

Section Second.
  Variables (nan : R) (o : lm_opts) (n : nat) (F : (nat -> R) -> nat -> R) (DF : (nat -> R) -> nat -> nat -> R).
  Variables (lb ub : nat -> ext) (x : nat -> R) (i : nat).
  Hypothesis Hi : (i < n)%nat.
  Hypothesis Hok : bounds_ok (Big o) (lb i) (ub i).
  Hypothesis Hext : forall u v, (forall i, (i < n)%nat -> u i = v i) -> forall i, (i < n)%nat -> F u i = F v i.
  Hypothesis Hs : smooth_at n F DF x.
  Let lo := lower_cut (Big o) (lb i).
  Let up := upper_cut (Big o) (ub i).
  Hypothesis Hclear : clear_of (2 / 100000000) lo up (x i) (F x i).

  Lemma above_iff : forall d r, d = 2 / 100000000 -> zero_or_above d r -> (- dnull <= r <-> 0 <= r) /\ (r <= dnull <-> r <= 0).
  Proof.
    intros d r -> [->|H]; unfold dnull in *; [split; split; lra|].
    unfold Rabs in H. destruct (Rcase_abs r); split; split; lra.
  Qed.

  Let e_i (k : nat) : R := if Nat.eqb k i then 1 else 0.
  Let act (sigma b fs : R) (j : nat) : R :=
    if Rle_dec 0 (sigma * (x i - b)) then if Rle_dec 0 (sigma * fs) then tgrad F DF i b x j else 0 else 0.

  (** F not zero: move coordinate i towards the side of the bound. *)
  Lemma term_F : forall sigma b w, sigma = 1 \/ sigma = -1 -> F x i <> 0 -> sigma * w = 1 ->
    along n (term F i sigma b) x (fun k => w * e_i k) (act sigma b (F x i)).
  Proof.
    intros sigma b w Hsig HF Hw.
    assert (W : (fun k => w * e_i k) i = w) by (cbv beta; unfold e_i; rewrite Nat.eqb_refl; ring).
    pose proof (term_along n F DF x i Hi Hext Hs (fun k => w * e_i k) sigma b Hsig) as T. cbv beta zeta in T. rewrite W in T.
    destruct (Req_EM_T (F x i) 0) as [E|_]; [contradiction|].
    assert (w <> 0) by (intro E; rewrite E in Hw; lra).
    specialize (T ltac:(destruct (Req_EM_T (x i - b) 0); assumption) HF).
    eapply along_ext; [intros; reflexivity| |exact T]. intros j Hj. unfold act.
    destruct (Req_EM_T (x i - b) 0) as [E|E]; [|reflexivity]. rewrite E, Rmult_0_r, Hw.
    destruct (Rle_dec 0 1); [|lra]. destruct (Rle_dec 0 0); [|lra]. reflexivity.
  Qed.

  (** F zero: a direction in which F moves. *)
  Lemma term_0 : forall sigma b v, sigma = 1 \/ sigma = -1 -> F x i = 0 -> v i <> 0 -> rsum n (fun k => DF x i k * v k) <> 0 ->
    along n (term F i sigma b) x v (act sigma b (rsum n (fun k => DF x i k * v k))).
  Proof.
    intros sigma b v Hsig HF Hv HD.
    pose proof (term_along n F DF x i Hi Hext Hs v sigma b Hsig) as T. cbv beta zeta in T.
    destruct (Req_EM_T (F x i) 0) as [_|E]; [|contradiction].
    specialize (T ltac:(destruct (Req_EM_T (x i - b) 0); assumption) HD).
    eapply along_ext; [intros; reflexivity| |exact T]. intros j Hj. unfold act.
    destruct (Req_EM_T (x i - b) 0) as [E|E]; [|reflexivity].
    assert (Z : tgrad F DF i b x j = 0) by (unfold tgrad; rewrite HF, E; ring). rewrite Z.
    repeat rd; reflexivity.
  Qed.

  Lemma flat_or : F x i <> 0 \/ (F x i = 0 /\ exists j, (j < n)%nat /\ DF x i j <> 0) \/ (F x i = 0 /\ forall j, (j < n)%nat -> DF x i j = 0).
  Proof.
    destruct (Req_EM_T (F x i) 0) as [E|E]; [right|left; exact E].
    assert (G : forall m, (exists j, (j < m)%nat /\ DF x i j <> 0) \/ forall j, (j < m)%nat -> DF x i j = 0).
    { induction m as [|m [(j & Hj & H)|H]]; [right; intros; lia|left; exists j; split; [lia|exact H]|].
      destruct (Req_EM_T (DF x i m) 0) as [E'|E']; [|left; exists m; split; [lia|exact E']].
      right. intros j Hj. destruct (Nat.eq_dec j m) as [->|]; [exact E'|apply H; lia]. }
    destruct (G n) as [H|H]; [left|right]; split; assumption.
  Qed.

  Lemma neg_rising : rsum n (fun k => DF x i k * (- rising DF x i k)) = - rsum n (fun k => DF x i k * rising DF x i k).
  Proof.
    rewrite (rsum_ext n _ (fun k => (-1) * (DF x i k * rising DF x i k))) by (intros; ring).
    rewrite rsum_scal. ring.
  Qed.

  Lemma alpha_l_iff : forall r, lb i = Fin r -> zero_or_above (2 / 100000000) (x i - r) ->
    alpha_l (lb i) (x i) (F x i) = if Rle_dec 0 (x i - r) then if Rle_dec 0 (F x i) then true else false else false.
  Proof.
    intros r E Hr. pose proof Hclear as (_ & _ & HF & _).
    destruct (above_iff _ _ eq_refl Hr) as [A _]. destruct (above_iff _ _ eq_refl HF) as [B _].
    unfold alpha_l, above. rewrite E.
    destruct (Rle_dec (- dnull) (x i - r)), (Rle_dec 0 (x i - r)); try tauto;
      destruct (Rle_dec (- dnull) (F x i)), (Rle_dec 0 (F x i)); cbn [andb]; tauto.
  Qed.

  Lemma alpha_u_iff : forall s, ub i = Fin s -> zero_or_above (2 / 100000000) (s - x i) ->
    alpha_u (ub i) (x i) (F x i) = if Rle_dec 0 (s - x i) then if Rle_dec (F x i) 0 then true else false else false.
  Proof.
    intros s E Hr. pose proof Hclear as (_ & _ & HF & _).
    destruct (above_iff _ _ eq_refl Hr) as [A _]. destruct (above_iff _ _ eq_refl HF) as [_ B].
    unfold alpha_u, below. rewrite E.
    destruct (Rle_dec (- dnull) (s - x i)), (Rle_dec 0 (s - x i)); try tauto;
      destruct (Rle_dec (F x i) dnull), (Rle_dec (F x i) 0); cbn [andb]; tauto.
  Qed.

  Let phi2 (y : nat -> R) := Phi nan o n F lb ub y (n + i)%nat.

  Lemma row2_eq : forall j, DPhi nan o n F DF lb ub x (n + i)%nat j =
    lambda2 * DPhi_H2 nan (indexset (Big o) (lb i) (ub i)) (lb i) (ub i) (x i) (F x i) (if Nat.eqb i j then 1 else 0) (DF x i j).
  Proof.
    intros j. unfold DPhi, DPhi3MCPPFB, ind. destruct (Nat.ltb_spec (n + i) n); [lia|].
    replace (n + i - n)%nat with i by lia. reflexivity.
  Qed.

  Lemma scale_flat : forall sigma b sigma' b' c', F x i = 0 -> (forall j, (j < n)%nat -> DF x i j = 0) ->
    gradient_at n (fun y => lambda2 * term F i sigma b y + c' * term F i sigma' b' y) x (fun _ => 0).
  Proof.
    intros sigma b sigma' b' c' HF HD j Hj.
    eapply derivable_ext'; [| |apply derivable_pt_lim_plus;
      [apply (derivable_pt_lim_scal _ lambda2 _ _ (term_flat n F DF x i Hi Hext Hs sigma b HF HD j Hj))
      |apply (derivable_pt_lim_scal _ c' _ _ (term_flat n F DF x i Hi Hext Hs sigma' b' HF HD j Hj))]];
      [intros; reflexivity|ring].
  Qed.

  Lemma second_row : generalised_gradient n phi2 x (DPhi nan o n F DF lb ub x (n + i)%nat).
  Proof.
    pose proof alpha_l_iff as ALI. pose proof alpha_u_iff as AUI.
    pose proof (indexset_cases _ _ _ Hok) as Hc. fold lo up in Hc. pose proof Hclear as (CL & CU & CF & CLU).
    assert (E2 : forall y, phi2 y = Phi_second nan (indexset (Big o) (lb i) (ub i)) (lb i) (ub i) (y i) (F y i))
      by (intros; apply phi2_eq; exact Hi).
    destruct (indexset (Big o) (lb i) (ub i)) as [|[|[|[|]]]] eqn:EI; destruct lo as [|r|] eqn:EL; destruct up as [|s|] eqn:EU;
      try contradiction.
    - apply gg_limit, gradient_limit.
      destruct (rows_free nan o n F DF lb ub x i Hi Hok Hext Hs EL EU) as [_ H]. exact H.
    - specialize (CL r eq_refl). pose proof (ALI r Hc CL) as AL.
      assert (Ef : forall y, lambda2 * term F i 1 r y + 0 * term F i 1 r y = phi2 y).
      { intros y. rewrite E2, Hc. unfold Phi_second, term. cbn [fin]. rewrite !Rmult_1_l. ring. }
      assert (Eg : forall fs j, (0 <= F x i -> 0 <= fs) -> (F x i < 0 -> fs < 0) ->
        lambda2 * act 1 r fs j + 0 * act 1 r fs j = DPhi nan o n F DF lb ub x (n + i)%nat j).
      { intros fs j P1 P2. rewrite row2_eq, EI. unfold DPhi_H2, act. rewrite AL, Hc. cbn [fin]. rewrite !Rmult_1_l.
        destruct (Rle_dec 0 (x i - r)); [|ring].
        assert (Q : (0 <= F x i /\ 0 <= fs) \/ (F x i < 0 /\ fs < 0)) by (destruct (Rle_lt_dec 0 (F x i)); [left|right]; split; auto).
        destruct (Rle_dec 0 fs), (Rle_dec 0 (F x i)); unfold tgrad; try ring; exfalso; lra. }
      destruct flat_or as [HF|[[HF HD]|[HF HD]]]; apply gg_limit.
      + eapply along_limit. eapply along_ext; [exact Ef| |exact (along_lin n _ _ x _ _ _ lambda2 0
          (term_F 1 r 1 ltac:(left; reflexivity) HF ltac:(ring)) (term_F 1 r 1 ltac:(left; reflexivity) HF ltac:(ring)))].
        intros j Hj. apply Eg; intros; assumption.
      + destruct (rising_ok n DF x i Hi HD) as [R1 R2].
        pose proof (term_0 1 r (rising DF x i) ltac:(left; reflexivity) HF R1 ltac:(lra)) as T.
        eapply along_limit. eapply along_ext; [exact Ef| |exact (along_lin n _ _ x _ _ _ lambda2 0 T T)].
        intros j Hj. apply Eg; intros; lra.
      + eapply limit_ext; [exact Ef| |apply gradient_limit; exact (scale_flat 1 r 1 r 0 HF HD)].
        intros j Hj. rewrite row2_eq, EI. unfold DPhi_H2. rewrite HF, (HD j Hj). cbv beta iota zeta. destruct (alpha_l (lb i) (x i) 0); ring.
    - specialize (CU s eq_refl). pose proof (AUI s Hc CU) as AU.
      assert (Ef : forall y, lambda2 * term F i (-1) s y + 0 * term F i (-1) s y = phi2 y).
      { intros y. rewrite E2, Hc. unfold Phi_second, term. cbn [fin].
        replace (-1 * (y i - s)) with (s - y i) by ring. replace (-1 * F y i) with (- F y i) by ring. ring. }
      assert (Eg : forall fs j, (F x i <= 0 -> fs <= 0) -> (0 < F x i -> 0 < fs) ->
        lambda2 * act (-1) s fs j + 0 * act (-1) s fs j = DPhi nan o n F DF lb ub x (n + i)%nat j).
      { intros fs j P1 P2. rewrite row2_eq, EI. unfold DPhi_H2, act. rewrite AU, Hc. cbn [fin].
        replace (-1 * (x i - s)) with (s - x i) by ring.
        destruct (Rle_dec 0 (s - x i)); [|ring].
        assert (Q : (F x i <= 0 /\ fs <= 0) \/ (0 < F x i /\ 0 < fs)) by (destruct (Rle_lt_dec (F x i) 0); [left|right]; split; auto).
        destruct (Rle_dec 0 (-1 * fs)), (Rle_dec (F x i) 0); unfold tgrad; try ring; exfalso; lra. }
      destruct flat_or as [HF|[[HF HD]|[HF HD]]]; apply gg_limit.
      + eapply along_limit. eapply along_ext; [exact Ef| |exact (along_lin n _ _ x _ _ _ lambda2 0
          (term_F (-1) s (-1) ltac:(right; reflexivity) HF ltac:(ring)) (term_F (-1) s (-1) ltac:(right; reflexivity) HF ltac:(ring)))].
        intros j Hj. apply Eg; intros; assumption.
      + destruct (rising_ok n DF x i Hi HD) as [R1 R2].
        pose proof neg_rising as NR.
        pose proof (term_0 (-1) s (fun k => - rising DF x i k) ltac:(right; reflexivity) HF ltac:(cbv beta; lra) ltac:(cbv beta; lra)) as T.
        eapply along_limit. eapply along_ext; [exact Ef| |exact (along_lin n _ _ x _ _ _ lambda2 0 T T)].
        intros j Hj. apply Eg; cbv beta; intros; lra.
      + eapply limit_ext; [exact Ef| |apply gradient_limit; exact (scale_flat (-1) s (-1) s 0 HF HD)].
        intros j Hj. rewrite row2_eq, EI. unfold DPhi_H2. rewrite HF, (HD j Hj). cbv beta iota zeta. destruct (alpha_u (ub i) (x i) 0); ring.
    - destruct Hc as (Hl & Hu & Hrs). specialize (CL r eq_refl). specialize (CU s eq_refl). specialize (CLU r s eq_refl eq_refl).
      pose proof (ALI r Hl CL) as AL. pose proof (AUI s Hu CU) as AU.
      assert (Ef : forall y, lambda2 * term F i 1 r y + lambda2 * term F i (-1) s y = phi2 y).
      { intros y. rewrite E2, Hl, Hu. unfold Phi_second, term. cbn [fin]. rewrite !Rmult_1_l.
        replace (-1 * (y i - s)) with (s - y i) by ring. replace (-1 * F y i) with (- F y i) by ring. ring. }
      assert (Fsgn : F x i = 0 \/ F x i < 0 \/ 0 < F x i) by (destruct (Rtotal_order (F x i) 0) as [|[|]]; lra).
      destruct flat_or as [HF|[[HF HD]|[HF HD]]].
      + apply gg_limit. destruct Fsgn as [|[Fn|Fp]]; [contradiction| |].
        * (* F < 0: the upper term *)
          assert (T1 : along n (term F i 1 r) x (fun k => -1 * e_i k) (fun _ => 0)).
          { pose proof (term_along n F DF x i Hi Hext Hs (fun k => -1 * e_i k) 1 r ltac:(left; reflexivity)) as T. cbv beta zeta in T.
            assert (W : -1 * e_i i = -1) by (unfold e_i; rewrite Nat.eqb_refl; ring). rewrite W in T.
            destruct (Req_EM_T (F x i) 0) as [E|_]; [contradiction|].
            specialize (T ltac:(destruct (Req_EM_T (x i - r) 0); lra) HF).
            eapply along_ext; [intros; reflexivity| |exact T]. intros j Hj. cbv beta.
            destruct (Rle_dec 0 (1 * F x i)); [lra|]. rd; reflexivity. }
          eapply along_limit. eapply along_ext; [exact Ef| |exact (along_lin n _ _ x _ _ _ lambda2 lambda2 T1
            (term_F (-1) s (-1) ltac:(right; reflexivity) HF ltac:(ring)))].
          intros j Hj. cbv beta. rewrite row2_eq, EI. unfold DPhi_H2, act. rewrite AL, AU, Hl, Hu. cbn [fin].
          replace (-1 * (x i - s)) with (s - x i) by ring.
          destruct (Rle_dec 0 (F x i)); [lra|]. destruct (Rle_dec (F x i) 0); [|lra]. destruct (Rle_dec 0 (-1 * F x i)); [|lra].
          destruct (Rle_dec 0 (x i - r)), (Rle_dec 0 (s - x i)); cbn [andb]; unfold tgrad; ring.
        * assert (T1 : along n (term F i (-1) s) x (fun k => 1 * e_i k) (fun _ => 0)).
          { pose proof (term_along n F DF x i Hi Hext Hs (fun k => 1 * e_i k) (-1) s ltac:(right; reflexivity)) as T. cbv beta zeta in T.
            assert (W : 1 * e_i i = 1) by (unfold e_i; rewrite Nat.eqb_refl; ring). rewrite W in T.
            destruct (Req_EM_T (F x i) 0) as [E|_]; [contradiction|].
            specialize (T ltac:(destruct (Req_EM_T (x i - s) 0); lra) HF).
            eapply along_ext; [intros; reflexivity| |exact T]. intros j Hj. cbv beta.
            destruct (Rle_dec 0 (-1 * F x i)); [lra|]. rd; reflexivity. }
          eapply along_limit. eapply along_ext; [exact Ef| |exact (along_lin n _ _ x _ _ _ lambda2 lambda2
            (term_F 1 r 1 ltac:(left; reflexivity) HF ltac:(ring)) T1)].
          intros j Hj. cbv beta. rewrite row2_eq, EI. unfold DPhi_H2, act. rewrite AL, AU, Hl, Hu. cbn [fin]. rewrite !Rmult_1_l.
          destruct (Rle_dec 0 (F x i)); [|lra]. destruct (Rle_dec (F x i) 0); [lra|].
          destruct (Rle_dec 0 (x i - r)), (Rle_dec 0 (s - x i)); cbn [andb]; unfold tgrad; ring.
      + destruct (rising_ok n DF x i Hi HD) as [R1 R2]. pose proof neg_rising as NR.
        set (Dv := rsum n (fun k => DF x i k * rising DF x i k)) in *.
        assert (G1 : generalised_gradient n phi2 x (fun j => lambda2 * (if Rle_dec 0 (x i - r) then (x i - r) * DF x i j else 0))).
        { apply gg_limit. eapply along_limit.
          eapply along_ext; [exact Ef| |exact (along_lin n _ _ x _ _ _ lambda2 lambda2
            (term_0 1 r (rising DF x i) ltac:(left; reflexivity) HF R1 ltac:(fold Dv; lra))
            (term_0 (-1) s (rising DF x i) ltac:(right; reflexivity) HF R1 ltac:(fold Dv; lra)))].
          intros j Hj. cbv beta. unfold act. fold Dv. rewrite !Rmult_1_l. destruct (Rle_dec 0 Dv); [|lra].
          destruct (Rle_dec 0 (-1 * Dv)); [lra|]. unfold tgrad. rewrite HF.
          destruct (Rle_dec 0 (x i - r)), (Rle_dec 0 (-1 * (x i - s))); ring. }
        assert (G2 : generalised_gradient n phi2 x (fun j => lambda2 * (if Rle_dec 0 (s - x i) then (x i - s) * DF x i j else 0))).
        { apply gg_limit. eapply along_limit.
          eapply along_ext; [exact Ef| |exact (along_lin n _ _ x _ _ _ lambda2 lambda2
            (term_0 1 r (fun k => - rising DF x i k) ltac:(left; reflexivity) HF ltac:(cbv beta; lra) ltac:(cbv beta; lra))
            (term_0 (-1) s (fun k => - rising DF x i k) ltac:(right; reflexivity) HF ltac:(cbv beta; lra) ltac:(cbv beta; lra)))].
          intros j Hj. cbv beta. unfold act. rewrite !NR, !Rmult_1_l. replace (-1 * (x i - s)) with (s - x i) by ring.
          destruct (Rle_dec 0 (- Dv)); [lra|]. destruct (Rle_dec 0 (-1 * - Dv)); [|lra]. unfold tgrad. rewrite HF.
          destruct (Rle_dec 0 (x i - r)), (Rle_dec 0 (s - x i)); ring. }
        destruct (Rle_dec 0 (x i - r)) as [P1|P1], (Rle_dec 0 (s - x i)) as [P2|P2].
        * eapply (gg_mix n phi2 x ((x i - r) / (s - r)) _ _ _); [|exact G1|exact G2|].
          -- split; [apply Rmult_le_pos; [lra|left; apply Rinv_0_lt_compat; lra]|].
             apply (Rmult_le_reg_r (s - r)); [lra|]. field_simplify; lra.
          -- intros j Hj. cbv beta. rewrite row2_eq, EI. unfold DPhi_H2. rewrite AL, AU, Hl, Hu, HF. cbn [fin].
             destruct (Rle_dec 0 (x i - r)); [|lra]. destruct (Rle_dec 0 (s - x i)); [|lra].
             destruct (Rle_dec 0 0); [|lra]. cbn [andb]. field. lra.
        * eapply gg_ext; [intros; reflexivity| |exact G1]. intros j Hj. cbv beta. rewrite row2_eq, EI. unfold DPhi_H2.
          rewrite AL, AU, Hl, Hu, HF. cbn [fin]. destruct (Rle_dec 0 (x i - r)); [|lra]. destruct (Rle_dec 0 (s - x i)); [lra|].
          destruct (Rle_dec 0 0); [|lra]. cbn [andb]. ring.
        * eapply gg_ext; [intros; reflexivity| |exact G2]. intros j Hj. cbv beta. rewrite row2_eq, EI. unfold DPhi_H2.
          rewrite AL, AU, Hl, Hu, HF. cbn [fin]. destruct (Rle_dec 0 (x i - r)); [lra|]. destruct (Rle_dec 0 (s - x i)); [|lra].
          destruct (Rle_dec 0 0); [|lra]. cbn [andb]. ring.
        * exfalso; lra.
      + apply gg_limit. eapply limit_ext; [exact Ef| |apply gradient_limit; exact (scale_flat 1 r (-1) s lambda2 HF HD)].
        intros j Hj. rewrite row2_eq, EI. unfold DPhi_H2. rewrite HF, (HD j Hj). cbv beta iota zeta.
        destruct (alpha_l (lb i) (x i) 0), (alpha_u (ub i) (x i) 0); cbn [andb]; ring.
  Qed.

  (** First block: the kinks are at a bound with F = 0. *)
  Lemma first_smooth :
    (forall r, lo = Fin r -> up = PInf -> x i - r <> 0 \/ F x i <> 0) ->
    (forall s, lo = MInf -> up = Fin s -> s - x i <> 0 \/ F x i <> 0) ->
    (forall r s, lo = Fin r -> up = Fin s -> (s - x i <> 0 \/ F x i <> 0) /\ (x i - r <> 0 \/ F x i <> 0)) ->
    gradient_at n (fun y => Phi nan o n F lb ub y i) x (DPhi nan o n F DF lb ub x i).
  Proof.
    intros K1 K2 K3 j Hj. destruct (moved0 n F x i Hi Hext j) as [X0 F0].
    pose proof (partial_x x i j) as HX. pose proof (partial_F n F DF x i Hi Hext Hs j Hj) as HFj.
    set (X := fun h => moved x j h i) in *. set (Fh := fun h => F (moved x j h) i) in *.
    set (e := if Nat.eqb i j then 1 else 0) in *. set (D := DF x i j) in *.
    pose proof (indexset_cases _ _ _ Hok) as Hc. fold lo up in Hc. pose proof Hclear as (CL & CU & CF & CLU).
    assert (big : forall a, zero_or_above (2 / 100000000) a -> a <> 0 -> 2 * dnull < Rabs a).
    { intros a [->|H] Ha; [congruence|]. unfold dnull. lra. }
    pose proof dnull_pos as Dp.
    assert (HXl : forall r, derivable_pt_lim (fun h => X h - r) 0 e).
    { intros r. eapply derivable_ext'; [| |apply derivable_pt_lim_minus; [exact HX|apply (derivable_pt_lim_const r)]];
      [intros; reflexivity|ring]. }
    assert (HXu : forall s, derivable_pt_lim (fun h => s - X h) 0 (- e)).
    { intros r. eapply derivable_ext'; [| |apply derivable_pt_lim_minus; [apply (derivable_pt_lim_const r)|exact HX]];
      [intros; reflexivity|ring]. }
    assert (HFm : derivable_pt_lim (fun h => - Fh h) 0 (- D)) by (apply derivable_pt_lim_opp; exact HFj).
    change (X 0 = x i) in X0. change (Fh 0 = F x i) in F0.
    assert (Ep : forall h, Phi nan o n F lb ub (moved x j h) i =
       Phi_first nan (indexset (Big o) (lb i) (ub i)) (lb i) (ub i) (X h) (Fh h)) by (intros; apply phi1_eq; exact Hi).
    unfold DPhi, DPhi3MCPPFB, ind. destruct (Nat.ltb_spec i n); [|lia].
    set (dz := rsum n _). set (z := zvec (lb i) (ub i) (x i) (F x i)).
    fold e. fold D.
    destruct (indexset (Big o) (lb i) (ub i)) as [|[|[|[|]]]] eqn:EI; destruct lo as [|r|] eqn:EL; destruct up as [|s|] eqn:EU;
      try contradiction; unfold DPhi_ab.
    - eapply derivable_ext'; [intros h; symmetry; apply Ep| |apply (derivable_pt_lim_scal _ (- lambda1) _ _ HFj)]. ring.
    - specialize (CL r eq_refl). specialize (K1 r eq_refl eq_refl).
      assert (A : dnull < Rabs (x i - r) \/ dnull < Rabs (F x i))
        by (destruct K1 as [K|K]; [left; pose proof (big _ CL K)|right; pose proof (big _ CF K)]; lra).
      assert (Bl : beta_l (lb i) (x i) (F x i) = false).
      { unfold beta_l, near, small. rewrite Hc. destruct A; destruct (Rle_dec (Rabs (x i - r)) dnull), (Rle_dec (Rabs (F x i)) dnull); cbn; try reflexivity; lra. }
      rewrite Bl. rewrite Hc in *. cbn [fin] in *. destruct (denom_eq (x i - r) (F x i) A) as [E N]. rewrite E.
      eapply derivable_ext'; [intros h; symmetry; rewrite Ep, Phi_first_1; reflexivity| |
        apply (derivable_pt_lim_scal _ (- lambda1) _ _ (PhiFB_curve _ _ 0 _ _ (HXl r) HFj ltac:(cbv beta; rewrite X0, F0; exact N)))].
      cbv beta. rewrite X0, F0. ring.
    - specialize (CU s eq_refl). specialize (K2 s eq_refl eq_refl).
      assert (A : dnull < Rabs (s - x i) \/ dnull < Rabs (F x i))
        by (destruct K2 as [K|K]; [left; pose proof (big _ CU K)|right; pose proof (big _ CF K)]; lra).
      assert (Bu : beta_u (ub i) (x i) (F x i) = false).
      { unfold beta_u, near, small. rewrite Hc. rewrite Rabs_minus_sym.
        destruct A; destruct (Rle_dec (Rabs (s - x i)) dnull), (Rle_dec (Rabs (F x i)) dnull); cbn; try reflexivity; lra. }
      rewrite Bu. rewrite Hc in *. cbn [fin] in *. destruct (denom_eq (s - x i) (F x i) A) as [E N]. rewrite E.
      assert (Eq : (s - x i) ^ 2 + (- F x i) ^ 2 = (s - x i) ^ 2 + F x i ^ 2) by ring.
      eapply derivable_ext'; [intros h; symmetry; rewrite Ep, Phi_first_2; reflexivity| |
        apply (derivable_pt_lim_scal _ lambda1 _ _ (PhiFB_curve _ _ 0 _ _ (HXu s) HFm ltac:(cbv beta; rewrite X0, F0, Eq; exact N)))].
      cbv beta. rewrite X0, F0, Eq. field. exact N.
    - destruct Hc as (Hl & Hu & Hrs). specialize (CL r eq_refl). specialize (CU s eq_refl). specialize (CLU r s eq_refl eq_refl).
      destruct (K3 r s eq_refl eq_refl) as [Ku Kl].
      assert (A : dnull < Rabs (s - x i) \/ dnull < Rabs (F x i))
        by (destruct Ku as [K|K]; [left; pose proof (big _ CU K)|right; pose proof (big _ CF K)]; lra).
      assert (Bu : beta_u (ub i) (x i) (F x i) = false).
      { unfold beta_u, near, small. rewrite Hu. rewrite Rabs_minus_sym.
        destruct A; destruct (Rle_dec (Rabs (s - x i)) dnull), (Rle_dec (Rabs (F x i)) dnull); cbn; try reflexivity; lra. }
      assert (A' : dnull < Rabs (x i - r) \/ dnull < Rabs (F x i))
        by (destruct Kl as [K|K]; [left; pose proof (big _ CL K)|right; pose proof (big _ CF K)]; lra).
      assert (Bl : beta_l (lb i) (x i) (F x i) = false).
      { unfold beta_l, near, small. rewrite Hl. destruct A'; destruct (Rle_dec (Rabs (x i - r)) dnull), (Rle_dec (Rabs (F x i)) dnull); cbn; try reflexivity; lra. }
      assert (Aphi : dnull < Rabs (x i - r) \/ dnull < Rabs (- PhiFB (s - x i) (- F x i))).
      { destruct (Req_EM_T (x i - r) 0) as [Ex|Ex]; [right|left; pose proof (big _ CL Ex); lra].
        assert (Fne : F x i <> 0) by (destruct Kl; [contradiction|assumption]).
        pose proof (big _ CF Fne) as BF. rewrite Rabs_Ropp.
        assert (Hsx : s - x i <> 0) by lra. pose proof (big _ CU Hsx) as BU.
        assert (BU' : 2 * dnull < s - x i) by (unfold Rabs in BU; destruct (Rcase_abs (s - x i)); lra).
        destruct (Rlt_le_dec (F x i) 0) as [Fn|Fp].
        - assert (BF' : 2 * dnull < - F x i) by (unfold Rabs in BF; destruct (Rcase_abs (F x i)); lra).
          pose proof (PhiFB_ge_min (s - x i) (- F x i) (2 * dnull) ltac:(lra) ltac:(lra) ltac:(lra)) as G.
          eapply Rlt_le_trans; [|apply Rle_abs]. lra.
        - assert (BF' : 2 * dnull < F x i) by (unfold Rabs in BF; destruct (Rcase_abs (F x i)); lra).
          pose proof (PhiFB_le_min (s - x i) (- F x i)) as G.
          destruct G as [_ G].
          rewrite Rabs_left by lra. lra. }
      rewrite Bl, Bu. rewrite Hl, Hu in *. cbn [fin] in *.
      destruct (denom_eq (s - x i) (F x i) A) as [E3 N3]. rewrite E3.
      assert (Eq : (s - x i) ^ 2 + (- F x i) ^ 2 = (s - x i) ^ 2 + F x i ^ 2) by ring.
      pose proof (PhiFB_curve _ _ 0 _ _ (HXu s) HFm ltac:(cbv beta; rewrite X0, F0, Eq; exact N3)) as Hq.
      apply derivable_pt_lim_opp in Hq. unfold opp_fct in Hq. cbv beta in Hq. rewrite X0, F0, Eq in Hq.
      assert (Ephi : - s + x i + F x i + sqrt ((s - x i) ^ 2 + F x i ^ 2) = - PhiFB (s - x i) (- F x i)).
      { unfold PhiFB. rewrite Eq. ring. }
      rewrite Ephi.
      destruct (denom_eq (x i - r) (- PhiFB (s - x i) (- F x i)) Aphi) as [E1 N1]. rewrite E1.
      eapply derivable_ext'; [intros h; symmetry; rewrite Ep, Phi_first_3; reflexivity| |
        apply (derivable_pt_lim_scal _ (- lambda1) _ _ (PhiFB_curve _ _ 0 _ _ (HXl r) Hq ltac:(cbv beta; rewrite X0, F0; exact N1)))].
      cbv beta. rewrite X0, F0. set (q := PhiFB (s - x i) (- F x i)) in *.
      set (sq := sqrt ((s - x i) ^ 2 + F x i ^ 2)) in *. set (sq1 := sqrt ((x i - r) ^ 2 + (- q) ^ 2)) in *.
      field. split; assumption.
  Qed.

  Lemma first_row : ~ (lo = Fin (x i) /\ up <> PInf /\ F x i = 0) ->
    limit_of_gradients n (fun y => Phi nan o n F lb ub y i) x (DPhi nan o n F DF lb ub x i).
  Proof.
    intros Hex. pose proof first_smooth as FS. pose proof Hclear as (CL & CU & CF & CLU).
    destruct (Req_EM_T (F x i) 0) as [E|E].
    2:{ apply gradient_limit, FS; intros; try (split; right; exact E); right; exact E. }
    destruct lo as [|r|] eqn:EL; destruct up as [|s|] eqn:EU;
      try (apply gradient_limit, FS; intros; congruence).
    - destruct (Req_EM_T (s - x i) 0) as [Es|Es].
      + assert (s = x i) by lra. subst s. apply (rows_upper nan o n F DF lb ub x i Hi Hok Hext Hs EL EU E).
      + apply gradient_limit, FS; intros; try congruence. left. congruence.
    - destruct (Req_EM_T (x i - r) 0) as [Es|Es].
      + exfalso. apply Hex. assert (r = x i) by lra. subst r. repeat split; [congruence|exact E].
      + destruct (Req_EM_T (s - x i) 0) as [Eu|Eu].
        * assert (s = x i) by lra. subst s.
          apply (rows_upper_two nan o n F DF lb ub x i r Hi Hok Hext Hs EL EU); [|exact E].
          specialize (CLU r (x i) eq_refl eq_refl). destruct (CL r eq_refl) as [|H]; [contradiction|].
          rewrite Rabs_right in H by lra. unfold dnull. lra.
        * apply gradient_limit, FS; intros; try congruence.
          split; left; congruence.
    - destruct (Req_EM_T (x i - r) 0) as [Es|Es].
      + assert (r = x i) by lra. subst r. apply (rows_lower nan o n F DF lb ub x i Hi Hok Hext Hs EL EU E).
      + apply gradient_limit, FS; intros; try congruence. left. congruence.
  Qed.
End Second.
