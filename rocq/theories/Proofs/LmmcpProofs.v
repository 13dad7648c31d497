From Coq Require Import Reals Arith Lia Lra String.
From Verif.Base Require Import Prelude Sums Norms Ext.
From Verif.Model Require Import Complementarity Lmmcp.
From Verif.Spec Require Import Complementarity.
From Verif.Proofs Require Import FischerBurmeister NewtonProofs.
Open Scope R_scope.

Lemma phi_u_FB : forall u x F, phi_u u x F = - PhiFB (u - x) (- F).
Proof.
  intros u x F. unfold phi_u, PhiFB.
  replace ((u - x) ^ 2 + (- F) ^ 2) with ((u - x) ^ 2 + F ^ 2) by ring. ring.
Qed.

Lemma Phi_first_1 : forall nan l u x F,
    Phi_first nan 1 (Fin l) u x F = - lambda1 * PhiFB (x - l) F.
Proof. intros. unfold Phi_first, PhiFB. cbn [fin]. ring. Qed.

Lemma Phi_first_2 : forall nan l u x F,
    Phi_first nan 2 l (Fin u) x F = lambda1 * PhiFB (u - x) (- F).
Proof. intros. unfold Phi_first. cbn [fin]. rewrite phi_u_FB. ring. Qed.

Lemma Phi_first_3 : forall nan l u x F,
    Phi_first nan 3 (Fin l) (Fin u) x F = - lambda1 * PhiFB (x - l) (- PhiFB (u - x) (- F)).
Proof. intros. unfold Phi_first. cbn [fin]. rewrite phi_u_FB. set (q := PhiFB (u - x) (- F)). unfold PhiFB. ring. Qed.

(** The index set follows the cut bounds. *)
Lemma indexset_cases : forall big l u,
    bounds_ok big l u ->
    match indexset big l u, lower_cut big l, upper_cut big u with
    | 0%nat, MInf, PInf => True
    | 1%nat, Fin r, PInf => l = Fin r
    | 2%nat, MInf, Fin s => u = Fin s
    | 3%nat, Fin r, Fin s => l = Fin r /\ u = Fin s /\ r <= s
    | _, _, _ => False
    end.
Proof.
  intros big l u (Hl & Hu & Hl2 & Hu2 & Hle). unfold indexset, lower_cut, upper_cut in *.
  destruct l as [|r|]; [| |contradiction]; destruct u as [|s|]; try contradiction; cbn in *;
    repeat match goal with
    | |- context [Rle_dec ?a ?b] => destruct (Rle_dec a b)
    | |- context [Rlt_dec ?a ?b] => destruct (Rlt_dec a b)
    end; cbn; try tauto; try lra;
    try (exfalso; apply Hl2; f_equal; lra); try (exfalso; apply Hu2; f_equal; lra);
    repeat split; try reflexivity; try assumption; try lra.
  all: destruct (Rle_dec r (- big)); destruct (Rle_dec big s); cbn in Hle; try lra.
Qed.

Lemma lambda1_pos : 0 < lambda1.
Proof. unfold lambda1; lra. Qed.
Lemma lambda2_pos : 0 < lambda2.
Proof. unfold lambda2, lambda1; lra. Qed.

Lemma scaled_zero : forall c a, c <> 0 -> (c * a = 0 <-> a = 0).
Proof.
  intros c a Hc. split; intros H; [|rewrite H; ring].
  apply Rmult_integral in H as [|]; [contradiction|assumption].
Qed.

Lemma max_prod_zero : forall a b, 0 <= a -> 0 <= b -> a * b = 0 -> Rmax 0 a * Rmax 0 b = 0.
Proof. intros a b Ha Hb H. rewrite !Rmax_right by assumption. exact H. Qed.

(** One component: both entries vanish iff the complementarity conditions hold. *)
Lemma component_zero_iff : forall nan big l u x F,
    bounds_ok big l u ->
    (Phi_first nan (indexset big l u) l u x F = 0 /\ Phi_second nan (indexset big l u) l u x F = 0
     <-> mcp (lower_cut big l) (upper_cut big u) x F).
Proof.
  intros nan big l u x F Hok. pose proof (indexset_cases big l u Hok) as Hc.
  pose proof lambda1_pos as L1. pose proof lambda2_pos as L2.
  destruct (indexset big l u) as [|[|[|[|]]]]; destruct (lower_cut big l) as [|r|];
    destruct (upper_cut big u) as [|s|]; try contradiction; unfold mcp; cbn [ext_le_l ext_le_r ext_lt_l ext_lt_r].
  - unfold Phi_first, Phi_second. split.
    + intros [H _]. apply scaled_zero in H; [|lra]. subst. repeat split; intros; lra.
    + intros (_ & _ & H1 & H2). assert (F = 0) as -> by (specialize (H1 I); specialize (H2 I); lra). lra.
  - subst l. rewrite Phi_first_1. unfold Phi_second; cbn [fin]. rewrite scaled_zero by lra.
    rewrite PhiFB_zero_iff. split.
    + intros [(H1 & H2 & H3) _]. repeat split; try lra. intros Hx.
      apply Rmult_integral in H3 as [|]; lra.
    + intros (H1 & _ & H3 & H4). specialize (H3 I).
      assert (E : (x - r) * F = 0).
      { destruct (Rle_lt_or_eq_dec _ _ H1) as [Hlt| <-]; [|ring].
        assert (F = 0) as -> by (specialize (H4 Hlt); lra). ring. }
      split; [repeat split; lra|]. rewrite Rmult_assoc, max_prod_zero by lra. ring.
  - subst u. rewrite Phi_first_2. unfold Phi_second; cbn [fin]. rewrite scaled_zero by lra.
    rewrite PhiFB_zero_iff. split.
    + intros [(H1 & H2 & H3) _]. repeat split; try lra. intros Hx.
      apply Rmult_integral in H3 as [|]; lra.
    + intros (_ & H1 & H3 & H4). specialize (H4 I).
      assert (E : (s - x) * (- F) = 0).
      { destruct (Rle_lt_or_eq_dec _ _ H1) as [Hlt| ->]; [|ring].
        assert (F = 0) as -> by (specialize (H3 Hlt); lra). ring. }
      split; [repeat split; lra|]. rewrite Rmult_assoc, max_prod_zero by lra. ring.
  - destruct Hc as (-> & -> & Hrs). rewrite Phi_first_3. unfold Phi_second; cbn [fin].
    rewrite scaled_zero by lra. rewrite PhiFB_zero_iff.
    pose proof (PhiFB_zero_iff (s - x) (- F)) as Z0. pose proof (PhiFB_pos_iff (s - x) (- F)) as Zp.
    pose proof (PhiFB_neg_iff (s - x) (- F)) as Zn. set (q := PhiFB (s - x) (- F)) in *. split.
    + intros [(H1 & H2 & H3) _].
      assert (Hq : ~ (0 < s - x /\ 0 < - F)) by (intros C; apply Zp in C; lra).
      assert (Hxs : x <= s).
      { destruct (Rle_lt_dec x s) as [|Hlt]; [assumption|exfalso].
        assert (q < 0) by (apply Zn; lra).
        apply Rmult_integral in H3 as [|]; lra. }
      split; [lra|]. split; [lra|]. split.
      * intros Hlt. destruct (Rle_lt_dec 0 F); [assumption|]. exfalso. apply Hq. lra.
      * intros Hlt. destruct (Rle_lt_dec F 0); [assumption|exfalso].
        assert (q < 0) by (apply Zn; lra). apply Rmult_integral in H3 as [|]; lra.
    + intros (H1 & H2 & H3 & H4).
      assert (Hq0 : q <= 0).
      { destruct (Rle_lt_dec q 0); [assumption|exfalso].
        assert (C : 0 < s - x /\ 0 < - F) by (apply Zp; assumption).
        assert (0 <= F) by (apply H3; lra). lra. }
      assert (E : (x - r) * - q = 0).
      { destruct (Rle_lt_or_eq_dec _ _ H1) as [Hlt| <-]; [|ring].
        specialize (H4 Hlt).
        assert (q = 0) as ->; [|ring].
        destruct (Rle_lt_or_eq_dec _ _ Hq0) as [Hneg|]; [|assumption].
        apply Zn in Hneg. lra. }
      split; [repeat split; lra|].
      assert (E1 : Rmax 0 (x - r) * Rmax 0 F = 0).
      { destruct (Rle_lt_or_eq_dec _ _ H1) as [Hlt| <-].
        - rewrite (Rmax_left 0 F) by (apply H4; assumption). ring.
        - replace (r - r) with 0 by ring. rewrite (Rmax_left 0 0) by lra. ring. }
      assert (E2 : Rmax 0 (s - x) * Rmax 0 (- F) = 0).
      { destruct (Rle_lt_or_eq_dec _ _ H2) as [Hlt| ->].
        - rewrite (Rmax_left 0 (- F)) by (specialize (H3 Hlt); lra). ring.
        - replace (s - s) with 0 by ring. rewrite (Rmax_left 0 0) by lra. ring. }
      rewrite E1, E2. ring.
Qed.

(** C24. *)
Lemma Phi_zero_iff : forall nan o n F lb ub x,
    (forall i, (i < n)%nat -> bounds_ok (Big o) (lb i) (ub i)) ->
    ((forall r, (r < 2 * n)%nat -> Phi nan o n F lb ub x r = 0) <->
     mcp_vec n (fun i => lower_cut (Big o) (lb i)) (fun i => upper_cut (Big o) (ub i)) x (F x)).
Proof.
  intros nan o n F lb ub x Hok. unfold Phi, Phi3MCPPFB, mcp_vec. split.
  - intros H i Hi. apply (component_zero_iff nan (Big o) (lb i) (ub i) (x i) (F x i) (Hok i Hi)). split.
    + specialize (H i ltac:(lia)). destruct (Nat.ltb_spec i n); [|lia]. exact H.
    + specialize (H (n + i)%nat ltac:(lia)). destruct (Nat.ltb_spec (n + i) n); [lia|].
      replace (n + i - n)%nat with i in H by lia. exact H.
  - intros H r Hr. destruct (Nat.ltb_spec r n) as [Hlt|Hge].
    + specialize (H r Hlt). apply (component_zero_iff nan) in H; [|apply Hok; assumption]. apply H.
    + specialize (H (r - n)%nat ltac:(lia)). apply (component_zero_iff nan) in H; [|apply Hok; lia]. apply H.
Qed.

(** Approximate version. *)
Lemma PhiFB_not_both : forall u v e, PhiFB u v <= e -> u <= 12 / 7 * e \/ v <= 12 / 7 * e \/ Rmin u v < 0.
Proof.
  intros u v e H. destruct (Rlt_le_dec (Rmin u v) 0); [right; right; assumption|].
  pose proof (PhiFB_ge_min u v (Rmin u v) r (Rmin_l _ _) (Rmin_r _ _)).
  unfold Rmin in *. destruct (Rle_dec u v); [left|right; left]; lra.
Qed.

Lemma component_approx : forall nan big l u x F e,
    bounds_ok big l u -> 0 <= e ->
    Rabs (Phi_first nan (indexset big l u) l u x F) <= lambda1 * e ->
    mcp_approx (3 * e) (lower_cut big l) (upper_cut big u) x F.
Proof.
  intros nan big l u x F e Hok He H. pose proof (indexset_cases big l u Hok) as Hc.
  pose proof lambda1_pos as L1.
  assert (Habs : forall a, Rabs (lambda1 * a) <= lambda1 * e -> - e <= a <= e).
  { intros a Ha. rewrite Rabs_mult, (Rabs_right lambda1) in Ha by lra.
    apply Rmult_le_reg_l in Ha; [|assumption]. pose proof (Rle_abs a). pose proof (Rle_abs (- a)) as Hm. rewrite Rabs_Ropp in Hm. lra. }
  assert (Habs' : forall a, Rabs (- lambda1 * a) <= lambda1 * e -> - e <= a <= e).
  { intros a Ha. apply Habs. rewrite <- Rabs_Ropp. replace (- (lambda1 * a)) with (- lambda1 * a) by ring. exact Ha. }
  destruct (indexset big l u) as [|[|[|[|]]]]; destruct (lower_cut big l) as [|r|];
    destruct (upper_cut big u) as [|s|]; try contradiction; unfold mcp_approx; cbn [ext_le_l ext_le_r ext_lt_l ext_lt_r].
  - apply Habs' in H. repeat split; intros; lra.
  - subst l. rewrite Phi_first_1 in H. apply Habs' in H.
    pose proof (PhiFB_le_min (x - r) F). destruct (PhiFB_not_both (x - r) F e) as [|[|]]; [lra| | |];
      try (repeat split; intros; lra).
    unfold Rmin in *. destruct (Rle_dec (x - r) F); repeat split; intros; lra.
  - subst u. rewrite Phi_first_2 in H. apply Habs in H.
    pose proof (PhiFB_le_min (s - x) (- F)). destruct (PhiFB_not_both (s - x) (- F) e) as [|[|]]; [lra| | |];
      try (repeat split; intros; lra).
    unfold Rmin in *. destruct (Rle_dec (s - x) (- F)); repeat split; intros; lra.
  - destruct Hc as (-> & -> & Hrs). rewrite Phi_first_3 in H. apply Habs' in H.
    pose proof (PhiFB_le_min (s - x) (- F)) as Q1. pose proof (PhiFB_not_both (s - x) (- F) e) as Q2.
    set (q := PhiFB (s - x) (- F)) in *.
    pose proof (PhiFB_le_min (x - r) (- q)) as P1. pose proof (PhiFB_not_both (x - r) (- q) e) as P2.
    assert (Hq : q <= e) by lra. specialize (Q2 Hq). specialize (P2 ltac:(lra)).
    assert (Q2' : s - x <= 12 / 7 * e \/ - F <= 12 / 7 * e).
    { destruct Q2 as [|[|Hm]]; [left; lra|right; lra|]. unfold Rmin in Hm. destruct (Rle_dec (s - x) (- F)); [left|right]; lra. }
    assert (P2' : x - r <= 12 / 7 * e \/ - q <= 12 / 7 * e).
    { destruct P2 as [|[|Hm]]; [left; lra|right; lra|]. unfold Rmin in Hm. destruct (Rle_dec (x - r) (- q)); [left|right]; lra. }
    repeat split; intros; lra.
Qed.

Lemma sumsq_ge : forall n v i, (i < n)%nat -> v i ^ 2 <= sumsq n v.
Proof.
  intros n v i Hi. unfold sumsq. induction n as [|n IH]; [lia|]. cbn [rsum].
  assert (0 <= rsum n (fun i => v i ^ 2)) by (apply rsum_nonneg; intros; apply pow2_ge_0).
  destruct (Nat.eq_dec i n) as [->|]; [lra|]. pose proof (pow2_ge_0 (v n)). specialize (IH ltac:(lia)). lra.
Qed.

Lemma Psi_small_approx : forall nan o n F lb ub x,
    (forall i, (i < n)%nat -> bounds_ok (Big o) (lb i) (ub i)) ->
    Psi_of n (Phi nan o n F lb ub x) <= eps2 o ->
    forall i, (i < n)%nat ->
      mcp_approx (30 * sqrt (2 * eps2 o)) (lower_cut (Big o) (lb i)) (upper_cut (Big o) (ub i)) (x i) (F x i).
Proof.
  intros nan o n F lb ub x Hok HPsi i Hi.
  replace (30 * sqrt (2 * eps2 o)) with (3 * (10 * sqrt (2 * eps2 o))) by ring.
  apply (component_approx nan); [apply Hok; assumption|pose proof (sqrt_pos (2 * eps2 o)); lra|].
  pose proof (sumsq_ge (2 * n) (Phi nan o n F lb ub x) i ltac:(lia)) as Hs.
  unfold Psi_of in HPsi. unfold Phi in Hs at 1. unfold Phi3MCPPFB in Hs.
  destruct (Nat.ltb_spec i n); [|lia]. unfold ind in Hs.
  set (v := Phi_first _ _ _ _ _ _) in *.
  replace (lambda1 * (10 * sqrt (2 * eps2 o))) with (sqrt (2 * eps2 o)) by (unfold lambda1; field).
  rewrite <- sqrt_Rsqr_abs. apply sqrt_le_1_alt. unfold Rsqr. nra.
Qed.

(** ** The algorithm *)

Section Alg.
  Variable nan : R.
  Variable o : lm_opts.
  Variable n : nat.
  Variable F : (nat -> R) -> nat -> R.
  Variable DF : (nat -> R) -> nat -> nat -> R.
  Variable lb ub : nat -> ext.
  Variable lsq : bool -> nat -> (nat -> nat -> R) -> (nat -> R) -> res (nat -> R).
  Let phi := Phi nan o n F lb ub.

  Definition inbox (x : nat -> R) : Prop :=
    forall i, (i < n)%nat -> ext_le_l (lb i) (x i) /\ ext_le_r (x i) (ub i).

  Lemma clip_in : forall l u x, ext_le l u -> l <> PInf -> u <> MInf ->
      ext_le_l l (clip nan l u x) /\ ext_le_r (clip nan l u x) u.
  Proof.
    intros l u x Hle Hl Hu. destruct l as [|r|], u as [|s|]; try contradiction; cbn in *; split; try exact I.
    - apply Rmin_r.
    - apply Rmax_l.
    - apply Rmax_lub; [assumption|apply Rmin_r].
    - apply Rmax_l.
  Qed.

  Lemma proj_step_in : forall l u x delta p, ext_le l u -> 0 <= delta ->
      ext_le_l l x -> ext_le_r x u ->
      ext_le_l l (x + proj_step l u x delta p) /\ ext_le_r (x + proj_step l u x delta p) u.
  Proof.
    intros l u x delta p Hle Hd Hlx Hxu. unfold proj_step.
    destruct l as [|r|], u as [|s|]; try contradiction; cbn in *; split; try exact I;
      unfold Rmax, Rmin; repeat match goal with
        | |- context [Rle_dec ?a ?b] => destruct (Rle_dec a b)
        | H : context [Rle_dec ?a ?b] |- _ => destruct (Rle_dec a b) end; lra.
  Qed.

  Lemma pre_loop_spec : forall fuel k x phix psix dphix delta normp x' phi' psi' dphi' k',
      phix = phi x -> psix = Psi_of n phix ->
      pre_loop nan o n F DF lb ub lsq fuel k x phix psix dphix delta normp = Ok (x', phi', psi', dphi', k') ->
      (k <= k' <= k + fuel)%nat /\ phi' = phi x' /\ psi' = Psi_of n phi' /\
      ((forall i, (i < n)%nat -> ext_le (lb i) (ub i)) -> 0 <= delta -> inbox x -> inbox x').
  Proof.
    induction fuel as [|fuel IH]; intros k x phix psix dphix delta normp x' phi' psi' dphi' k' Hphi Hpsi H;
      cbn [pre_loop] in H.
    - injection H as <- <- <- <- <-. (split; [lia|]; split; [assumption|]; split; [assumption|]; intros; assumption).
    - destruct (Rlt_dec (eps2 o) psix); [|injection H as <- <- <- <- <-; (split; [lia|]; split; [assumption|]; split; [assumption|]; intros; assumption)].
      destruct (Rlt_dec (null_ o) normp); [|injection H as <- <- <- <- <-; (split; [lia|]; split; [assumption|]; split; [assumption|]; intros; assumption)].
      destruct (lsq true (S k) dphix phix) as [p|e]; cbn [bind] in H; [|discriminate].
      apply IH in H; [|reflexivity|reflexivity]. destruct H as (H1 & H2 & H3 & H4).
      split; [lia|]. split; [assumption|]. split; [assumption|].
      intros Hle Hd Hin. apply H4; [assumption| |].
      + unfold deltamin, sigma1, sigma2.
        destruct (Rle_dec _ _); [pose proof (Rmax_l 1 (2 * delta)); lra|].
        destruct (Rlt_dec _ _); [pose proof (Rmax_l 1 (1 / 2 * delta)); lra|assumption].
      + intros i Hi. destruct (Hin i Hi). apply proj_step_in; auto.
  Qed.

  Definition main_inv (s : mstate) : Prop :=
    m_phi s = phi (m_x s) /\ m_psi s = Psi_of n (m_phi s) /\
    b_phi s = phi (b_x s) /\ b_psi s = Psi_of n (b_phi s).

  Lemma main_step_inv : forall s s', main_inv s -> main_step nan o n F DF lb ub lsq s = Ok s' ->
      main_inv s' /\ m_k s' = S (m_k s).
  Proof.
    intros s s' (H1 & H2 & H3 & H4) H. unfold main_step in H.
    destruct (lsq false (m_k s) (m_dphi s) (m_phi s)) as [d|e]; cbn [bind] in H; [|discriminate].
    destruct (armijo _ _ _ _ _ _ _ _ _ _ _ _ _) as [x'|]; [|discriminate].
    destruct (Rlt_dec _ _); [injection H as <-|destruct (Nat.ltb _ _); injection H as <-];
      (split; [repeat split; cbn; assumption|reflexivity]).
  Qed.

  Lemma main_loop_spec : forall fuel s s', main_inv s -> main_loop nan o n F DF lb ub lsq fuel s = Ok s' ->
      main_inv s' /\ (m_k s <= m_k s' <= m_k s + fuel)%nat /\
      (m_psi s' <= eps2 o \/ m_k s' = (m_k s + fuel)%nat).
  Proof.
    induction fuel as [|fuel IH]; intros s s' Hinv H; cbn [main_loop] in H.
    - injection H as <-. split; [assumption|]. split; [lia|right; lia].
    - destruct (Rlt_dec (eps2 o) (m_psi s)) as [Hlt|Hge].
      + destruct (main_step nan o n F DF lb ub lsq s) as [s1|e] eqn:E; cbn [bind] in H; [|discriminate].
        apply main_step_inv in E; [|assumption]. destruct E as [Hi Hk].
        apply IH in H; [|assumption]. destruct H as (A & B & C). split; [assumption|]. split; [lia|].
        destruct C as [C|C]; [left; assumption|right; lia].
      + injection H as <-. split; [assumption|]. split; [lia|left; lra].
  Qed.

  Lemma lmmcp_converged : forall xs r,
      (presteps o <= kmax)%nat ->
      lmmcp nan o n F DF lb ub lsq xs = Ok r -> Psi_of n (phi r) <= eps2 o.
  Proof.
    intros xs r Hpre H. unfold lmmcp in H.
    set (x0 := fun i => clip nan (lb i) (ub i) (xs i)) in *.
    assert (Hmain : forall k x phix psix dphix,
      (k <= kmax)%nat -> phix = phi x -> psix = Psi_of n phix ->
      bind (main_loop nan o n F DF lb ub lsq (kmax - k)
              {| m_x := x; m_phi := phix; m_psi := psix; m_dphi := dphix;
                 m_dpsi := DPsi_of n dphix phix;
                 m_max := Psi_of n (phi x0); m_aux := upd (fun _ => 0) 0 (Psi_of n (phi x0)); m_k := k; m_kmain := 0;
                 b_k := 0; b_x := x0; b_phi := phi x0; b_psi := Psi_of n (phi x0);
                 b_dphi := DPhi nan o n F DF lb ub x0;
                 b_dpsi := DPsi_of n (DPhi nan o n F DF lb ub x0) (phi x0) |})
           (fun s => if Nat.eqb (m_k s) kmax then Err (ExcGeneric "No convergence")
                     else Ok (m_x s)) = Ok r -> Psi_of n (phi r) <= eps2 o).
    { intros k x phix psix dphix Hk Hphi Hpsi Hm.
      match type of Hm with bind (main_loop _ _ _ _ _ _ _ _ ?f ?s) _ = _ =>
        destruct (main_loop nan o n F DF lb ub lsq f s) as [s'|e] eqn:E end; cbn [bind] in Hm; [|discriminate].
      apply main_loop_spec in E; [|repeat split; cbn; assumption || reflexivity].
      destruct E as ((I1 & I2 & _ & _) & B & C). cbn [m_k] in B, C.
      destruct (Nat.eqb_spec (m_k s') kmax) as [Ek|Nk]; [discriminate|]. injection Hm as <-.
      destruct C as [C|C]; [|lia]. rewrite I2, I1 in C. exact C. }
    destruct (preprocess o).
    - destruct (pre_loop _ _ _ _ _ _ _ _ _ _ _ _ _ _ _ _) as [st|e] eqn:E; cbn [bind] in H; [|discriminate].
      destruct st as [[[[x phix] psix] dphix] k].
      apply pre_loop_spec in E; [|reflexivity|reflexivity]. destruct E as (E1 & E2 & E3 & _).
      destruct (Rlt_dec psix (eps2 o)) as [Hlt|Hge].
      + destruct (verbose o).
        * injection H as <-. rewrite E3, E2 in Hlt. lra.
        * apply (Hmain k x phix psix dphix); try assumption. lia.
      + apply (Hmain k x0 (phi x0) (Psi_of n (phi x0)) (DPhi nan o n F DF lb ub x0)); try reflexivity; [lia|exact H].
    - apply (Hmain 0%nat x0 (phi x0) (Psi_of n (phi x0)) (DPhi nan o n F DF lb ub x0)); try reflexivity; [lia|exact H].
  Qed.

  (** The step-length search never runs out of fuel. *)
  Lemma armijo_some : forall fuel j x d mx c xn,
      (47 <= fuel + j)%nat -> armijo nan o n F lb ub fuel x d mx c (lm_beta ^ j) xn <> None.
  Proof.
    assert (H47 : lm_beta ^ 47 <= tmin) by (unfold lm_beta, tmin; simpl; lra).
    assert (Hmono : forall j, (47 <= j)%nat -> lm_beta ^ j <= tmin).
    { intros j Hj. replace j with (47 + (j - 47))%nat by lia. rewrite pow_add.
      assert (Hp : forall k, 0 < lm_beta ^ k <= 1).
      { induction k as [|k IH]; simpl; [lra|]. unfold lm_beta in *. nra. }
      pose proof (Hp (j - 47)%nat). pose proof (Hp 47%nat). nra. }
    induction fuel as [|fuel IH]; intros j x d mx c xn Hj; cbn [armijo].
    - destruct (Rlt_dec _ _); [|discriminate].
      destruct (Rlt_dec tmin (lm_beta ^ j)) as [Hlt|]; [|discriminate].
      specialize (Hmono j ltac:(lia)). lra.
    - destruct (Rlt_dec _ _); [|discriminate].
      destruct (Rlt_dec tmin (lm_beta ^ j)) as [Hlt|]; [|discriminate].
      replace (lm_beta ^ j * lm_beta) with (lm_beta ^ (S j)) by (simpl; ring).
      apply IH. lia.
  Qed.

  Lemma main_step_total : forall s,
      (forall b k J v, exists d, lsq b k J v = Ok d) ->
      exists s', main_step nan o n F DF lb ub lsq s = Ok s'.
  Proof.
    intros s Hl. unfold main_step. destruct (Hl false (m_k s) (m_dphi s) (m_phi s)) as [d ->]. cbn [bind].
    destruct (armijo _ _ _ _ _ _ _ _ _ _ _ _ _) as [x'|] eqn:E.
    - destruct (Rlt_dec _ _); [eexists; reflexivity|]. destruct (Nat.ltb _ _); eexists; reflexivity.
    - exfalso. revert E. change 1 with (lm_beta ^ 0). apply armijo_some. lia.
  Qed.
End Alg.
