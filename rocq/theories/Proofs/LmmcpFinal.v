From Coq Require Import Reals Arith Lia Lra String.
From Verif.Base Require Import Prelude Sums Norms Ext.
From Verif.Model Require Import Complementarity Lmmcp.
From Verif.Spec Require Import Complementarity LmmcpState.
From Verif.Proofs Require Import FischerBurmeister NewtonProofs LmmcpProofs.
Open Scope R_scope.

(** ** Derivatives *)

Lemma derivable_pt_lim_loc : forall (f g : R -> R) x l d,
    0 < d -> (forall y, Rabs (y - x) < d -> f y = g y) ->
    derivable_pt_lim f x l -> derivable_pt_lim g x l.
Proof.
  intros f g x l d Hd Heq Hf eps Heps. destruct (Hf eps Heps) as [delta Hdelta].
  assert (Hm : 0 < Rmin d delta) by (apply Rmin_pos; [assumption|apply cond_pos]).
  exists (mkposreal _ Hm). intros h Hh Hlt. cbn in Hlt.
  rewrite <- !Heq.
  - apply Hdelta; [assumption|]. eapply Rlt_le_trans; [exact Hlt|apply Rmin_r].
  - replace (x - x) with 0 by ring. rewrite Rabs_R0. assumption.
  - replace (x + h - x) with h by ring. eapply Rlt_le_trans; [exact Hlt|apply Rmin_l].
Qed.

Lemma derivable_local_sign : forall u t du,
    derivable_pt_lim u t du -> u t <> 0 ->
    exists d, 0 < d /\ forall y, Rabs (y - t) < d -> 0 < u y * u t.
Proof.
  intros u t du Hu Hne.
  assert (Hc : continuity_pt u t) by (apply derivable_continuous_pt; exists du; exact Hu).
  destruct (Hc (Rabs (u t)) (Rabs_pos_lt _ Hne)) as (d & Hd & H). exists d. split; [exact Hd|].
  intros y Hy. destruct (Req_dec y t) as [->|Hyt].
  - assert (0 < u t * u t) by (apply Rsqr_pos_lt in Hne; exact Hne). assumption.
  - specialize (H y). cbn in H. unfold R_dist in H.
    assert (Hx : Rabs (u y - u t) < Rabs (u t)).
    { apply H. split; [|exact Hy]. split; [exact I|]. congruence. }
    unfold Rabs in Hx. destruct (Rcase_abs (u t)), (Rcase_abs (u y - u t)); nra.
Qed.

Lemma deriv_max_pos : forall u t du, derivable_pt_lim u t du -> 0 < u t ->
    derivable_pt_lim (fun s => Rmax 0 (u s)) t du.
Proof.
  intros u t du Hu Hp. destruct (derivable_local_sign u t du Hu ltac:(lra)) as (d & Hd & H).
  apply (derivable_pt_lim_loc u _ t du d Hd); [|assumption].
  intros y Hy. rewrite Rmax_right; [reflexivity|]. specialize (H y Hy). nra.
Qed.

Lemma deriv_max_neg : forall u t du, derivable_pt_lim u t du -> u t < 0 ->
    derivable_pt_lim (fun s => Rmax 0 (u s)) t 0.
Proof.
  intros u t du Hu Hp. destruct (derivable_local_sign u t du Hu ltac:(lra)) as (d & Hd & H).
  apply (derivable_pt_lim_loc (fun _ => 0) _ t 0 d Hd); [|apply derivable_pt_lim_const].
  intros y Hy. rewrite Rmax_left; [reflexivity|]. specialize (H y Hy). nra.
Qed.

Lemma derivable_ext' : forall (f g : R -> R) x l l',
    (forall y, f y = g y) -> l = l' -> derivable_pt_lim f x l -> derivable_pt_lim g x l'.
Proof.
  intros f g x l l' Hfg <- H. apply (derivable_pt_lim_loc f g x l 1); [lra| |assumption].
  intros; apply Hfg.
Qed.

(** Product of positive parts, away from the kinks. *)
Lemma deriv_maxprod : forall (u v : R -> R) t du dv,
    derivable_pt_lim u t du -> derivable_pt_lim v t dv -> u t <> 0 -> v t <> 0 ->
    derivable_pt_lim (fun s => Rmax 0 (u s) * Rmax 0 (v s)) t
      (if Rle_dec 0 (u t) then if Rle_dec 0 (v t) then u t * dv + v t * du else 0 else 0).
Proof.
  intros u v t du dv Hu Hv Nu Nv.
  destruct (Rle_dec 0 (u t)) as [Pu|Pu]; [|].
  - destruct (Rle_dec 0 (v t)) as [Pv|Pv].
    + eapply derivable_ext'; [| |apply derivable_pt_lim_mult;
        [apply (deriv_max_pos u t du Hu); lra|apply (deriv_max_pos v t dv Hv); lra]];
      [intros; reflexivity|]. cbv beta. rewrite !Rmax_right by assumption. ring.
    + eapply derivable_ext'; [| |apply derivable_pt_lim_mult;
        [apply (deriv_max_pos u t du Hu); lra|apply (deriv_max_neg v t dv Hv); lra]];
      [intros; reflexivity|]. cbv beta. rewrite (Rmax_left 0 (v t)) by lra. ring.
  - assert (Hv' : exists d, derivable_pt_lim (fun s => Rmax 0 (v s)) t d).
    { destruct (Rle_dec 0 (v t)); [exists dv; apply deriv_max_pos; [assumption|lra]|
        exists 0; apply (deriv_max_neg v t dv); [assumption|lra]]. }
    destruct Hv' as [d Hd].
    eapply derivable_ext'; [| |apply derivable_pt_lim_mult;
        [apply (deriv_max_neg u t du Hu); lra|exact Hd]]; [intros; reflexivity|].
    cbv beta. rewrite (Rmax_left 0 (u t)) by lra. ring.
Qed.

Definition away := away_from_kinks dnull.

Lemma dnull_pos : 0 < dnull.
Proof. unfold dnull; lra. Qed.

Lemma away_small : forall l u x F, away l u x F ->
    small F = false /\ beta_l l x F = false /\ beta_u u x F = false.
Proof.
  intros l u x F (Hl & Hu & HF). unfold beta_l, beta_u, small.
  destruct (Rle_dec (Rabs F) dnull); [lra|]. rewrite !Bool.andb_false_r. repeat split.
Qed.

Lemma denom_eq : forall a b, dnull < Rabs a \/ dnull < Rabs b ->
    Rmax dnull (sqrt (a ^ 2 + b ^ 2)) = sqrt (a ^ 2 + b ^ 2) /\ sqrt (a ^ 2 + b ^ 2) <> 0.
Proof.
  intros a b H. pose proof dnull_pos.
  assert (dnull < sqrt (a ^ 2 + b ^ 2)).
  { pose proof (sqrt_ge_abs a b). pose proof (sqrt_ge_abs b a) as Hb.
    replace (b ^ 2 + a ^ 2) with (a ^ 2 + b ^ 2) in Hb by ring. destruct H; lra. }
  split; [apply Rmax_right; lra|lra].
Qed.

(** The derivative of PhiFB along a curve, in terms of explicit coefficients. *)
Lemma PhiFB_curve : forall (u v : R -> R) t du dv,
    derivable_pt_lim u t du -> derivable_pt_lim v t dv ->
    sqrt (u t ^ 2 + v t ^ 2) <> 0 ->
    derivable_pt_lim (fun s => PhiFB (u s) (v s)) t
      ((1 - u t / sqrt (u t ^ 2 + v t ^ 2)) * du + (1 - v t / sqrt (u t ^ 2 + v t ^ 2)) * dv).
Proof.
  intros u v t du dv Hu Hv Hs. pose proof (PhiFB_deriv u v t du dv Hu Hv Hs) as H.
  unfold PhiFB_ in H. destruct (Req_EM_T _ 0); [contradiction|]. exact H.
Qed.

Section Component.
  Variable nan big : R.
  Variable l u : ext.
  Variable X Fh : R -> R.
  Variable e D : R.
  Hypothesis Hok : bounds_ok big l u.
  Hypothesis HX : derivable_pt_lim X 0 e.
  Hypothesis HF : derivable_pt_lim Fh 0 D.
  Hypothesis Haway : away l u (X 0) (Fh 0).

  Lemma first_deriv : forall z dz,
      let '(da, db) := DPhi_ab nan (indexset big l u) l u (X 0) (Fh 0) z dz in
      derivable_pt_lim (fun h => Phi_first nan (indexset big l u) l u (X h) (Fh h)) 0
        (lambda1 * (da * e + db * D)).
  Proof.
    intros z dz. pose proof (indexset_cases big l u Hok) as Hc.
    destruct (away_small l u (X 0) (Fh 0) Haway) as (_ & Bl & Bu).
    destruct Haway as (Al & Au & AF).
    assert (HXl : forall r, derivable_pt_lim (fun h => X h - r) 0 e).
    { intros r. eapply derivable_ext'; [| |apply derivable_pt_lim_minus; [exact HX|apply (derivable_pt_lim_const r)]];
      [intros; reflexivity|ring]. }
    assert (HXu : forall s, derivable_pt_lim (fun h => s - X h) 0 (- e)).
    { intros r. eapply derivable_ext'; [| |apply derivable_pt_lim_minus; [apply (derivable_pt_lim_const r)|exact HX]];
      [intros; reflexivity|ring]. }
    assert (HFm : derivable_pt_lim (fun h => - Fh h) 0 (- D)) by (apply derivable_pt_lim_opp; exact HF).
    destruct (indexset big l u) as [|[|[|[|]]]]; destruct (lower_cut big l) as [|r|];
      destruct (upper_cut big u) as [|s|]; try contradiction; unfold DPhi_ab.
    - unfold Phi_first.
      eapply derivable_ext'; [| |apply (derivable_pt_lim_scal _ (- lambda1) _ _ HF)]; [intros; reflexivity|ring].
    - subst l. rewrite Bl. cbn [fin] in *. destruct (denom_eq (X 0 - r) (Fh 0)) as [E N]; [right; exact AF|]. rewrite E.
      eapply derivable_ext'; [intros h; symmetry; apply Phi_first_1| |
        apply (derivable_pt_lim_scal _ (- lambda1) _ _ (PhiFB_curve _ _ 0 _ _ (HXl r) HF N))].
      cbv beta. ring.
    - subst u. rewrite Bu. cbn [fin] in *. destruct (denom_eq (s - X 0) (Fh 0)) as [E N]; [right; exact AF|].
      rewrite E.
      assert (Eq : (s - X 0) ^ 2 + (- Fh 0) ^ 2 = (s - X 0) ^ 2 + Fh 0 ^ 2) by ring.
      eapply derivable_ext'; [intros h; symmetry; apply Phi_first_2| |
        apply (derivable_pt_lim_scal _ lambda1 _ _ (PhiFB_curve _ _ 0 _ _ (HXu s) HFm ltac:(cbv beta; rewrite Eq; exact N)))].
      cbv beta. rewrite Eq. field. exact N.
    - destruct Hc as (-> & -> & Hrs). rewrite Bl, Bu. cbn [fin] in *.
      destruct (denom_eq (s - X 0) (Fh 0)) as [E3 N3]; [right; exact AF|]. rewrite E3.
      assert (Eq : (s - X 0) ^ 2 + (- Fh 0) ^ 2 = (s - X 0) ^ 2 + Fh 0 ^ 2) by ring.
      pose proof (PhiFB_curve _ _ 0 _ _ (HXu s) HFm ltac:(cbv beta; rewrite Eq; exact N3)) as Hq.
      apply derivable_pt_lim_opp in Hq. unfold opp_fct in Hq. cbv beta in Hq. rewrite Eq in Hq.
      assert (Ephi : - s + X 0 + Fh 0 + sqrt ((s - X 0) ^ 2 + Fh 0 ^ 2) = - PhiFB (s - X 0) (- Fh 0)).
      { unfold PhiFB. rewrite Eq. ring. }
      rewrite Ephi.
      destruct (denom_eq (X 0 - r) (- PhiFB (s - X 0) (- Fh 0))) as [E1 N1]; [left; exact Al|]. rewrite E1.
      eapply derivable_ext'; [intros h; symmetry; apply Phi_first_3| |
        apply (derivable_pt_lim_scal _ (- lambda1) _ _ (PhiFB_curve _ _ 0 _ _ (HXl r) Hq N1))].
      cbv beta. set (q := PhiFB (s - X 0) (- Fh 0)) in *.
      set (sq := sqrt ((s - X 0) ^ 2 + Fh 0 ^ 2)) in *. set (sq1 := sqrt ((X 0 - r) ^ 2 + (- q) ^ 2)) in *.
      field. split; assumption.
  Qed.

  Lemma second_deriv :
      derivable_pt_lim (fun h => Phi_second nan (indexset big l u) l u (X h) (Fh h)) 0
        (lambda2 * DPhi_H2 nan (indexset big l u) l u (X 0) (Fh 0) e D).
  Proof.
    pose proof (indexset_cases big l u Hok) as Hc.
    destruct Haway as (Al & Au & AF). pose proof dnull_pos as Dp.
    assert (HXl : forall r, derivable_pt_lim (fun h => X h - r) 0 e).
    { intros r. eapply derivable_ext'; [| |apply derivable_pt_lim_minus; [exact HX|apply (derivable_pt_lim_const r)]];
      [intros; reflexivity|ring]. }
    assert (HXu : forall s, derivable_pt_lim (fun h => s - X h) 0 (- e)).
    { intros r. eapply derivable_ext'; [| |apply derivable_pt_lim_minus; [apply (derivable_pt_lim_const r)|exact HX]];
      [intros; reflexivity|ring]. }
    assert (HFm : derivable_pt_lim (fun h => - Fh h) 0 (- D)) by (apply derivable_pt_lim_opp; exact HF).
    assert (NF : Fh 0 <> 0) by (intro E; rewrite E, Rabs_R0 in AF; lra).
    assert (Hbig : forall a, dnull < Rabs a -> a < - dnull \/ dnull < a).
    { intros a Ha. unfold Rabs in Ha. destruct (Rcase_abs a); lra. }
    destruct (Hbig _ AF) as [SF|SF];
    destruct (indexset big l u) as [|[|[|[|]]]]; destruct (lower_cut big l) as [|r|];
      destruct (upper_cut big u) as [|s|]; try contradiction; unfold DPhi_H2, Phi_second;
      try (eapply derivable_ext'; [| |apply (derivable_pt_lim_scal _ (- lambda2) _ _ HF)]; [intros; reflexivity|ring]).
    all: try destruct Hc as (-> & -> & Hrs); try subst l; try subst u; unfold alpha_l, alpha_u, above, below; cbn [fin] in *.
    all: try (destruct (Hbig _ Al) as [SL|SL]); try (destruct (Hbig _ Au) as [SU|SU]).
    all: repeat match goal with |- context [Rle_dec ?a ?b] => destruct (Rle_dec a b); try lra end; cbn [andb].
    all: try (pose proof (deriv_maxprod _ _ 0 _ _ (HXl r) HF ltac:(cbv beta; lra) NF) as M1; cbv beta in M1).
    all: try (pose proof (deriv_maxprod _ _ 0 _ _ (HXu s) HFm ltac:(cbv beta; lra) ltac:(cbv beta; lra)) as M2; cbv beta in M2).
    all: repeat match goal with
         | H : context [Rle_dec ?a ?b] |- _ => destruct (Rle_dec a b); try lra end.
    all: try (pose proof (derivable_pt_lim_plus _ _ _ _ _ M1 M2) as M3).
    all: first
      [ eapply derivable_ext'; [| |apply (derivable_pt_lim_scal _ lambda2 _ _ M3)];
          [intros; unfold mult_real_fct, plus_fct; ring|ring]
      | eapply derivable_ext'; [| |apply (derivable_pt_lim_scal _ lambda2 _ _ M1)];
          [intros; unfold mult_real_fct; ring|ring]
      | eapply derivable_ext'; [| |apply (derivable_pt_lim_scal _ lambda2 _ _ M2)];
          [intros; unfold mult_real_fct; ring|ring] ].
  Qed.
End Component.

(** C77: the Jacobian. *)
Lemma DPhi_is_derivative : forall nan o n F DF lb ub x r j,
    (r < 2 * n)%nat -> (j < n)%nat ->
    (forall i, (i < n)%nat -> bounds_ok (Big o) (lb i) (ub i)) ->
    (forall i, (i < n)%nat -> away (lb i) (ub i) (x i) (F x i)) ->
    (forall u v, (forall i, (i < n)%nat -> u i = v i) -> forall i, (i < n)%nat -> F u i = F v i) ->
    (forall i, (i < n)%nat ->
       derivable_pt_lim (fun h => F (fun k => x k + (if Nat.eqb k j then h else 0)) i) 0 (DF x i j)) ->
    derivable_pt_lim (fun h => Phi nan o n F lb ub (fun k => x k + (if Nat.eqb k j then h else 0)) r) 0
      (DPhi nan o n F DF lb ub x r j).
Proof.
  intros nan o n F DF lb ub x r j Hr Hj Hok Haway Hext HF.
  assert (Hcase : exists i, (i < n)%nat /\ (r = i \/ r = (n + i)%nat)).
  { destruct (Nat.ltb_spec r n); [exists r; split; [assumption|left; reflexivity]|].
    exists (r - n)%nat. split; [lia|right; lia]. }
  destruct Hcase as (i & Hi & Hri).
  set (X := fun h : R => x i + (if Nat.eqb i j then h else 0)).
  set (Fh := fun h : R => F (fun k => x k + (if Nat.eqb k j then h else 0)) i).
  assert (HX : derivable_pt_lim X 0 (if Nat.eqb i j then 1 else 0)).
  { unfold X. destruct (Nat.eqb i j).
    - eapply derivable_ext'; [| |apply derivable_pt_lim_plus; [apply (derivable_pt_lim_const (x i))|apply derivable_pt_lim_id]];
      [intros; reflexivity|ring].
    - apply derivable_pt_lim_const. }
  assert (X0 : X 0 = x i) by (unfold X; destruct (Nat.eqb i j); ring).
  assert (F0 : Fh 0 = F x i).
  { unfold Fh. apply Hext; [|assumption]. intros k Hk. destruct (Nat.eqb k j); ring. }
  assert (Haw : away (lb i) (ub i) (X 0) (Fh 0)) by (rewrite X0, F0; apply Haway; assumption).
  unfold Phi, DPhi, Phi3MCPPFB, DPhi3MCPPFB, ind.
  destruct Hri as [-> | ->].
  - destruct (Nat.ltb_spec i n); [|lia].
    pose proof (first_deriv nan (Big o) (lb i) (ub i) X Fh _ _ (Hok i Hi) HX (HF i Hi) Haw
                  (zvec (lb i) (ub i) (x i) (F x i))
                  (rsum n (fun k => DF x i k * zvec (lb k) (ub k) (x k) (F x k)))) as H1.
    rewrite X0, F0 in H1.
    destruct (DPhi_ab _ _ _ _ _ _ _ _) as [da db]. exact H1.
  - destruct (Nat.ltb_spec (n + i) n); [lia|]. replace (n + i - n)%nat with i by lia.
    pose proof (second_deriv nan (Big o) (lb i) (ub i) X Fh _ _ (Hok i Hi) HX (HF i Hi) Haw) as H1.
    rewrite X0, F0 in H1. exact H1.
Qed.

(** ** Summary statements *)

Lemma lmmcp_solution : forall nan o n F DF lb ub lsq xs r,
    (presteps o <= kmax)%nat ->
    (forall i, (i < n)%nat -> bounds_ok (Big o) (lb i) (ub i)) ->
    lmmcp nan o n F DF lb ub lsq xs = Ok r ->
    Psi_of n (Phi nan o n F lb ub r) <= eps2 o /\
    forall i, (i < n)%nat ->
      mcp_approx (30 * sqrt (2 * eps2 o)) (lower_cut (Big o) (lb i)) (upper_cut (Big o) (ub i)) (r i) (F r i).
Proof.
  intros nan o n F DF lb ub lsq xs r Hp Hok H.
  assert (HP : Psi_of n (Phi nan o n F lb ub r) <= eps2 o)
    by (eapply lmmcp_converged; eassumption).
  split; [exact HP|]. apply (Psi_small_approx nan); assumption.
Qed.

(** Every preprocessing iterate stays in the box. *)
Lemma preprocessing_feasible : forall nan o n F DF lb ub lsq fuel xs x phix psix dphix k,
    (forall i, (i < n)%nat -> ext_le (lb i) (ub i) /\ lb i <> PInf /\ ub i <> MInf) ->
    let x0 := fun i => clip nan (lb i) (ub i) (xs i) in
    pre_loop nan o n F DF lb ub lsq fuel 0 x0 (Phi nan o n F lb ub x0)
       (Psi_of n (Phi nan o n F lb ub x0)) (DPhi nan o n F DF lb ub x0) 5 1 = Ok (x, phix, psix, dphix, k) ->
    (k <= fuel)%nat /\ phix = Phi nan o n F lb ub x /\ psix = Psi_of n phix /\
    forall i, (i < n)%nat -> ext_le_l (lb i) (x i) /\ ext_le_r (x i) (ub i).
Proof.
  intros nan o n F DF lb ub lsq fuel xs x phix psix dphix k Hb x0 H.
  apply pre_loop_spec in H; [|reflexivity|reflexivity]. destruct H as (H1 & H2 & H3 & H4).
  split; [lia|]. split; [assumption|]. split; [assumption|].
  apply H4; [intros; apply Hb; assumption|lra|].
  intros i Hi. destruct (Hb i Hi) as (Hle & Hl & Hu). apply clip_in; assumption.
Qed.

(** With least-squares steps that never fail, the only exception is "No convergence". *)
Lemma lmmcp_outcome : forall nan o n F DF lb ub lsq xs,
    (forall b k J v, exists d, lsq b k J v = Ok d) ->
    (exists r, lmmcp nan o n F DF lb ub lsq xs = Ok r) \/
    lmmcp nan o n F DF lb ub lsq xs = Err (ExcGeneric "No convergence").
Proof.
  intros nan o n F DF lb ub lsq xs Hl.
  assert (Hml : forall fuel s, exists s', main_loop nan o n F DF lb ub lsq fuel s = Ok s').
  { induction fuel as [|fuel IH]; intros s; cbn [main_loop]; [eexists; reflexivity|].
    destruct (Rlt_dec _ _); [|eexists; reflexivity].
    destruct (main_step_total nan o n F DF lb ub lsq s Hl) as [s' ->]. cbn [bind]. apply IH. }
  assert (Hpl : forall fuel k x a b c d e, exists r, pre_loop nan o n F DF lb ub lsq fuel k x a b c d e = Ok r).
  { induction fuel as [|fuel IH]; intros; cbn [pre_loop]; [eexists; reflexivity|].
    destruct (Rlt_dec _ _); [|eexists; reflexivity]. destruct (Rlt_dec _ _); [|eexists; reflexivity].
    destruct (Hl true (S k) c a) as [p ->]. cbn [bind]. apply IH. }
  unfold lmmcp.
  assert (Hm : forall fuel s,
    (exists r, bind (main_loop nan o n F DF lb ub lsq fuel s)
      (fun s => if Nat.eqb (m_k s) kmax then Err (ExcGeneric "No convergence") else Ok (m_x s)) = Ok r) \/
    bind (main_loop nan o n F DF lb ub lsq fuel s)
      (fun s => if Nat.eqb (m_k s) kmax then Err (ExcGeneric "No convergence") else Ok (m_x s))
      = Err (ExcGeneric "No convergence")).
  { intros fuel s. destruct (Hml fuel s) as [s' ->]. cbn [bind].
    destruct (Nat.eqb (m_k s') kmax); [right; reflexivity|left; eexists; reflexivity]. }
  destruct (preprocess o); [|apply Hm].
  destruct (Hpl (presteps o) 0%nat (fun i => clip nan (lb i) (ub i) (xs i))
     (Phi nan o n F lb ub (fun i => clip nan (lb i) (ub i) (xs i)))
     (Psi_of n (Phi nan o n F lb ub (fun i => clip nan (lb i) (ub i) (xs i))))
     (DPhi nan o n F DF lb ub (fun i => clip nan (lb i) (ub i) (xs i))) 5 1) as [[[[[x ph] ps] dp] k] ->].
  cbn [bind]. destruct (Rlt_dec _ _); [|apply Hm]. destruct (verbose o); [left; eexists; reflexivity|apply Hm].
Qed.

Definition default_opts : lm_opts :=
  {| eps2 := / 10 ^ 14; null_ := / 10 ^ 8; Big := 10 ^ 10; preprocess := true; presteps := 20; verbose := true |}.

(** A bound equal to the threshold switches off the other bound as well: F(x) = x + 1
    on [0, 1e10] has the zero residual at -1. *)
Lemma Phi_threshold_wrong : forall nan,
    let F := fun (x : nat -> R) i => x i + 1 in
    let lb := fun _ : nat => Fin 0 in let ub := fun _ : nat => Fin (10 ^ 10) in
    (forall r, (r < 2)%nat -> Phi nan default_opts 1 F lb ub (fun _ => -1) r = 0) /\
    ~ mcp (Fin 0) (Fin (10 ^ 10)) (-1) (F (fun _ => -1) 0%nat) /\
    mcp (Fin 0) (Fin (10 ^ 10)) 0 (F (fun _ => 0) 0%nat) /\
    ~ (forall r, (r < 2)%nat -> Phi nan default_opts 1 F lb ub (fun _ => 0) r = 0).
Proof.
  intros nan F lb ub.
  assert (Hi : forall i, ind default_opts lb ub i = 0%nat).
  { intros i. unfold ind, indexset, lb, ub, default_opts. cbn [Big ext_gtb ext_ltb].
    destruct (Rlt_dec (10 ^ 10) (10 ^ 10)); [lra|]. rewrite !Bool.andb_false_r. reflexivity. }
  assert (HP : forall x r, (r < 2)%nat -> Phi nan default_opts 1 F lb ub (fun _ => x) r =
    if Nat.eqb r 0 then - lambda1 * (x + 1) else - lambda2 * (x + 1)).
  { intros x r Hr. unfold Phi, Phi3MCPPFB. rewrite !Hi. unfold Phi_first, Phi_second, F.
    destruct r as [|[|]]; [reflexivity|reflexivity|lia]. }
  repeat split.
  - intros r Hr. rewrite HP by assumption. destruct (Nat.eqb r 0); ring.
  - intros (H & _). cbn in H. lra.
  - cbn. lra.
  - cbn. lra.
  - intros; unfold F. lra.
  - intros H. cbn in H. lra.
  - intros H. specialize (H 0%nat ltac:(lia)). rewrite HP in H by lia. simpl in H. unfold lambda1 in H. lra.
Qed.

(** Larger budgets for the preprocessor than the iteration limit: a point with a large
    residual is returned as if it were a solution. *)
Lemma presteps_wrong : forall nan,
    let o := {| eps2 := / 10 ^ 14; null_ := / 10 ^ 8; Big := 10 ^ 10; preprocess := true;
                presteps := S kmax; verbose := true |} in
    let F := fun (_ : nat -> R) (_ : nat) => 1 in
    let DF := fun (_ : nat -> R) (_ _ : nat) => 0 in
    let lb := fun _ : nat => MInf in let ub := fun _ : nat => PInf in
    let lsq := fun (_ : bool) (_ : nat) (_ : nat -> nat -> R) (_ : nat -> R) => Ok (fun _ : nat => 1) in
    exists r, lmmcp nan o 1 F DF lb ub lsq (fun _ => 0) = Ok r /\
              eps2 o < Psi_of 1 (Phi nan o 1 F lb ub r).
Proof.
  intros nan o F DF lb ub lsq.
  assert (HPsi : forall x, Psi_of 1 (Phi nan o 1 F lb ub x) = 41 / 100).
  { intros x. unfold Psi_of, sumsq, Phi, Phi3MCPPFB, ind, indexset, lb, ub, F. cbn [ext_gtb ext_ltb andb].
    simpl rsum. unfold Phi_first, Phi_second, lambda1, lambda2, lambda1. simpl. field. }
  assert (He : eps2 o < 41 / 100).
  { cbn [eps2 o]. apply Rlt_trans with (/ 10); [|lra]. apply Rinv_lt_contravar; simpl; lra. }
  assert (Hloop : forall fuel k x dphix delta, exists x' phi' dphi',
     pre_loop nan o 1 F DF lb ub lsq fuel k x (Phi nan o 1 F lb ub x) (Psi_of 1 (Phi nan o 1 F lb ub x)) dphix delta 1
     = Ok (x', phi', 41 / 100, dphi', (k + fuel)%nat)).
  { induction fuel as [|fuel IH]; intros k x dphix delta; cbn [pre_loop]; rewrite !HPsi.
    - rewrite Nat.add_0_r. eexists _, _, _. reflexivity.
    - destruct (Rlt_dec (eps2 o) (41 / 100)); [|lra].
      destruct (Rlt_dec (null_ o) 1) as [|Hn].
      2:{ exfalso. apply Hn. cbn [null_ o]. apply Rlt_trans with (/ 10); [|lra]. apply Rinv_lt_contravar; simpl; lra. }
      cbn [bind lsq].
      assert (E1 : norm2 1 (fun _ : nat => 1) = 1).
      { unfold norm2, sumsq. simpl. replace (0 + 1 * (1 * 1)) with 1 by ring. apply sqrt_1. }
      rewrite E1. rewrite Nat.add_succ_r. rewrite <- Nat.add_succ_l.
      match goal with |- context [pre_loop _ _ _ _ _ _ _ _ fuel (S k) ?xn (Phi _ _ _ _ _ _ _) _ ?dp ?de 1] =>
        destruct (IH (S k) xn dp de) as (x' & p' & d' & E) end.
      eexists _, _, _. exact E. }
  exists (fun i => clip nan (lb i) (ub i) 0). split; [|rewrite HPsi; exact He].
  unfold lmmcp. cbn [preprocess o presteps].
  match goal with |- context [pre_loop _ _ _ _ _ _ _ _ (S kmax) 0 ?xn (Phi _ _ _ _ _ _ _) _ ?dp ?de 1] =>
        destruct (Hloop (S kmax) 0%nat xn dp de) as (x' & p' & d' & E) end.
  fold o in E |- *. rewrite E. cbn [bind].
  destruct (Rlt_dec (41 / 100) (eps2 o)); [lra|].
  replace (kmax - (0 + S kmax))%nat with 0%nat by lia. cbn [main_loop bind m_k m_x].
  replace (Nat.eqb (0 + S kmax) kmax) with false; [reflexivity|].
  symmetry. apply Nat.eqb_neq. lia.
Qed.

(** An upper bound that binds: F = -1 on [0,1]; from 5 the projection finds the solution. *)
Lemma lmmcp_example : forall nan lsq,
    exists r, lmmcp nan default_opts 1 (fun _ _ => -1) (fun _ _ _ => 0) (fun _ => Fin 0) (fun _ => Fin 1) lsq (fun _ => 5)
              = Ok r /\ r 0%nat = 1.
Proof.
  intros nan lsq. set (lb := fun _ : nat => Fin 0). set (ub := fun _ : nat => Fin 1).
  assert (Hok : forall i, (i < 1)%nat -> bounds_ok (Big default_opts) (lb i) (ub i)).
  { intros i _. unfold bounds_ok, lb, ub, default_opts. cbn [Big]. repeat split; try discriminate.
    - intros H; injection H; simpl; intros; lra.
    - intros H; injection H; simpl; intros; lra.
    - unfold lower_cut, upper_cut; cbn. destruct (Rle_dec 0 _); [simpl in *; lra|].
      destruct (Rle_dec _ 1); [simpl in *; lra|]. cbn; lra. }
  set (x0 := fun i => clip nan (lb i) (ub i) 5).
  assert (Hx0 : forall i, x0 i = 1).
  { intros i. unfold x0, clip, lb, ub. rewrite Rmin_right, Rmax_right; lra. }
  assert (HPhi : forall r, (r < 2)%nat -> Phi nan default_opts 1 (fun _ _ => -1) lb ub x0 r = 0).
  { intros r Hr. apply (Phi_zero_iff nan default_opts 1 (fun _ _ => -1) lb ub x0 Hok); [|lia].
    intros i Hi. cbv beta. rewrite Hx0. unfold lower_cut, upper_cut, lb, ub, default_opts. cbn.
    destruct (Rle_dec 0 _); [simpl in *; lra|]. destruct (Rle_dec _ 1); [simpl in *; lra|]. cbn. unfold mcp; cbn.
    repeat split; intros; lra. }
  assert (HPsi : Psi_of 1 (Phi nan default_opts 1 (fun _ _ => -1) lb ub x0) = 0).
  { unfold Psi_of, sumsq. rewrite rsum_0; [ring|]. intros i Hi. rewrite HPhi by lia. ring. }
  assert (He : 0 < eps2 default_opts) by (cbn; apply Rinv_0_lt_compat; lra).
  exists x0. split; [|apply Hx0].
  assert (Hstop : forall fuel phi dphi delta nrm,
    pre_loop nan default_opts 1 (fun _ _ => -1) (fun _ _ _ => 0) lb ub lsq fuel 0 x0 phi 0 dphi delta nrm
    = Ok (x0, phi, 0, dphi, 0%nat)).
  { intros [|fuel] phi dphi delta nrm; [reflexivity|]. cbn [pre_loop].
    destruct (Rlt_dec (eps2 default_opts) 0); [lra|reflexivity]. }
  unfold lmmcp. fold x0. rewrite HPsi, Hstop. cbn [bind].
  destruct (Rlt_dec 0 (eps2 default_opts)); [|lra]. reflexivity.
Qed.

Lemma away_example :
  bounds_ok (10 ^ 10) (Fin 0) (Fin 4) /\ away_from_kinks (1 / 100000000) (Fin 0) (Fin 4) 1 (-2).
Proof.
  split.
  - unfold bounds_ok. repeat split; try discriminate.
    + intros H; injection H; simpl; intros; lra.
    + intros H; injection H; simpl; intros; lra.
    + unfold lower_cut, upper_cut; cbn. destruct (Rle_dec 0 _); [simpl in *; lra|].
      destruct (Rle_dec _ 4); [simpl in *; lra|]. cbn; lra.
  - unfold away_from_kinks. rewrite (Rabs_right (1 - 0)), (Rabs_right (4 - 1)), (Rabs_left (-2)) by lra.
    repeat split; lra.
Qed.

(** ** The gradient of the merit function *)
Lemma derivable_rsum : forall m (f : nat -> R -> R) (g : nat -> R) h0,
  (forall r, (r < m)%nat -> derivable_pt_lim (f r) h0 (g r)) ->
  derivable_pt_lim (fun h => rsum m (fun r => f r h)) h0 (rsum m g).
Proof.
  induction m as [|m IH]; intros f g h0 H; cbn [rsum].
  - apply derivable_pt_lim_const.
  - apply derivable_pt_lim_plus; [apply IH; intros; apply H; lia|apply H; lia].
Qed.
Lemma DPsi_is_gradient : forall nan o n F DF lb ub x j,
    (j < n)%nat ->
    (forall i, (i < n)%nat -> bounds_ok (Big o) (lb i) (ub i)) ->
    (forall i, (i < n)%nat -> away (lb i) (ub i) (x i) (F x i)) ->
    (forall u v, (forall i, (i < n)%nat -> u i = v i) -> forall i, (i < n)%nat -> F u i = F v i) ->
    (forall i, (i < n)%nat ->
       derivable_pt_lim (fun h => F (fun k => x k + (if Nat.eqb k j then h else 0)) i) 0 (DF x i j)) ->
    derivable_pt_lim (fun h => Psi_of n (Phi nan o n F lb ub (fun k => x k + (if Nat.eqb k j then h else 0)))) 0
      (DPsi_of n (DPhi nan o n F DF lb ub x) (Phi nan o n F lb ub x) j).
Proof.
  intros nan o n F DF lb ub x j Hj Hok Haway Hext HF. unfold Psi_of, DPsi_of, sumsq.
  set (xh := fun (h : R) (k : nat) => x k + (if Nat.eqb k j then h else 0)).
  assert (X0 : forall r, (r < 2 * n)%nat -> Phi nan o n F lb ub (xh 0) r = Phi nan o n F lb ub x r).
  { intros r Hr. assert (E : forall k, xh 0 k = x k) by (intros k; unfold xh; destruct (Nat.eqb k j); ring).
    assert (EF : forall i, (i < n)%nat -> F (xh 0) i = F x i) by (intros; apply Hext; auto).
    unfold Phi, Phi3MCPPFB. destruct (Nat.ltb_spec r n); rewrite !E, EF by lia; reflexivity. }
  replace (rsum (2 * n) (fun r => DPhi nan o n F DF lb ub x r j * Phi nan o n F lb ub x r))
    with (/ 2 * rsum (2 * n) (fun r => INR 2 * Phi nan o n F lb ub (xh 0) r ^ 1 * DPhi nan o n F DF lb ub x r j)).
  - apply (derivable_pt_lim_scal (fun h => rsum (2 * n) (fun r => Phi nan o n F lb ub (xh h) r ^ 2))).
    apply (derivable_rsum (2 * n) (fun r h => Phi nan o n F lb ub (xh h) r ^ 2)). intros r Hr.
    apply (derivable_pt_lim_comp (fun h => Phi nan o n F lb ub (xh h) r) (fun y => y ^ 2)).
    + apply DPhi_is_derivative; assumption.
    + apply (derivable_pt_lim_pow _ 2).
  - rewrite <- rsum_scal. apply rsum_ext. intros r Hr. rewrite X0 by exact Hr. simpl INR. field.
Qed.

(** ** The line search *)
Lemma armijo_first : forall nan o n F lb ub fuel x d maxpsi const t y,
  0 < t ->
  armijo nan o n F lb ub fuel x d maxpsi const t (fun i => x i + t * d i) = Some y ->
  exists k, let s := t * lm_beta ^ k in
    y = (fun i => x i + s * d i) /\
    (Psi_of n (Phi nan o n F lb ub y) <= maxpsi + const * s \/ s <= tmin) /\
    forall m, (m < k)%nat -> let u := t * lm_beta ^ m in
      tmin < u /\ maxpsi + const * u < Psi_of n (Phi nan o n F lb ub (fun i => x i + u * d i)).
Proof.
  intros nan o n F lb ub. induction fuel as [|fuel IH]; intros x d maxpsi const t y Ht H; cbn [armijo] in H.
  - destruct (Rlt_dec _ _) as [L|L] in H.
    + destruct (Rlt_dec tmin t) as [T|T]; [discriminate H|]. inversion H; subst; clear H.
      exists O. cbn [pow]. rewrite Rmult_1_r. split; [reflexivity|]. split; [right; lra|]. intros m Hm; lia.
    + inversion H; subst; clear H. exists O. cbn [pow]. rewrite Rmult_1_r. split; [reflexivity|]. split; [left; lra|]. intros m Hm; lia.
  - destruct (Rlt_dec _ _) as [L|L] in H.
    + destruct (Rlt_dec tmin t) as [T|T].
      * apply IH in H; [|unfold lm_beta; lra]. destruct H as (k & E & Q & Z). exists (S k).
        replace (t * lm_beta * lm_beta ^ k) with (t * lm_beta ^ S k) in * by (cbn [pow]; ring).
        split; [exact E|]. split; [exact Q|]. intros [|m] Hm.
        -- cbn [pow]. rewrite Rmult_1_r. split; assumption.
        -- generalize (Z m ltac:(lia)). replace (t * lm_beta * lm_beta ^ m) with (t * lm_beta ^ S m) by (cbn [pow]; ring). intros X; exact X.
      * inversion H; subst; clear H.
        exists O. cbn [pow]. rewrite Rmult_1_r. split; [reflexivity|]. split; [right; lra|]. intros m Hm; lia.
    + inversion H; subst; clear H. exists O. cbn [pow]. rewrite Rmult_1_r. split; [reflexivity|]. split; [left; lra|]. intros m Hm; lia.
Qed.
(** One iteration of the main phase. *)
Lemma lmmcp_step : forall nan o n F DF lb ub lsq s s',
  main_step nan o n F DF lb ub lsq s = Ok s' ->
  exists d k, lsq false (m_k s) (m_dphi s) (m_phi s) = Ok d /\
    let t := (55 / 100) ^ k in
    let slope := rsum n (fun j => m_dpsi s j * d j) in
    let x' := fun i => m_x s i + t * d i in
    (m_x s' = x' \/ (m_x s' = b_x s /\ (b_k s + 20 < S (m_k s))%nat)) /\
    (Psi_of n (Phi nan o n F lb ub x') <= m_max s + 1 / 10000 * slope * t \/ t <= 1 / 1000000000000) /\
    forall m, (m < k)%nat -> let u := (55 / 100) ^ m in
      m_max s + 1 / 10000 * slope * u < Psi_of n (Phi nan o n F lb ub (fun i => m_x s i + u * d i)).
Proof.
  intros nan o n F DF lb ub lsq s s' H. unfold main_step in H.
  destruct (lsq false (m_k s) (m_dphi s) (m_phi s)) as [d|e] eqn:El; [|discriminate H]. cbn [bind] in H.
  set (const := rsum n (fun j => lm_sigma * m_dpsi s j * d j)) in H.
  assert (Ec : const = 1 / 10000 * rsum n (fun j => m_dpsi s j * d j)).
  { unfold const. rewrite <- rsum_scal. apply rsum_ext. intros; unfold lm_sigma; ring. }
  destruct (armijo _ _ _ _ _ _ _ _ _ _ _ _ _) as [y|] eqn:Ea in H; [|discriminate H].
  replace (fun i => m_x s i + d i) with (fun i => m_x s i + 1 * d i) in Ea by (apply FunctionalExtensionality.functional_extensionality; intros; ring).
  apply armijo_first in Ea; [|lra]. destruct Ea as (k & E & Q & Z). cbn zeta in E, Q, Z.
  rewrite Rmult_1_l in E, Q. rewrite E in Q. unfold tmin, lm_beta in *. rewrite Ec in *.
  exists d, k. split; [reflexivity|]. cbn zeta. split; [|split].
  - destruct (Rlt_dec _ _) in H; [inversion H; left; exact E|].
    destruct (Nat.ltb_spec kwatch (S (m_k s) - b_k s)) in H; inversion H; [right|left; exact E].
    cbn. split; [reflexivity|unfold kwatch in *; lia].
  - exact Q.
  - intros m Hm. generalize (proj2 (Z m Hm)). rewrite !Rmult_1_l. intros X; exact X.
Qed.

Lemma consistent_step : forall nan o n F DF lb ub lsq s s',
  consistent nan o n F DF lb ub s -> main_step nan o n F DF lb ub lsq s = Ok s' ->
  consistent nan o n F DF lb ub s' /\ b_psi s' <= b_psi s /\ b_psi s' <= Rmax (b_psi s) (m_psi s').
Proof.
  intros nan o n F DF lb ub lsq s s' (C1 & C2 & C3 & C4 & C5 & C6 & C7 & C8) H. unfold main_step in H.
  destruct (lsq false (m_k s) (m_dphi s) (m_phi s)) as [d|e]; [|discriminate H]. cbn [bind] in H.
  destruct (armijo _ _ _ _ _ _ _ _ _ _ _ _ _) as [y|] in H; [|discriminate H].
  destruct (Rlt_dec _ _) as [L|L] in H.
  - inversion H; subst; clear H. unfold consistent. cbn. repeat split; auto; [lra|]. apply Rmax_r.
  - destruct (Nat.ltb _ _) in H; inversion H; subst; clear H; unfold consistent; cbn; repeat split; auto; try lra; apply Rmax_l.
Qed.
Lemma consistent_loop : forall nan o n F DF lb ub lsq fuel s s',
  consistent nan o n F DF lb ub s -> main_loop nan o n F DF lb ub lsq fuel s = Ok s' ->
  consistent nan o n F DF lb ub s' /\ b_psi s' <= b_psi s.
Proof.
  intros nan o n F DF lb ub lsq. induction fuel as [|fuel IH]; intros s s' C H; cbn [main_loop] in H.
  - inversion H; subst. split; [exact C|lra].
  - destruct (Rlt_dec _ _) in H; [|inversion H; subst; split; [exact C|lra]].
    destruct (main_step nan o n F DF lb ub lsq s) as [s1|e] eqn:E; [|discriminate H]. cbn [bind] in H.
    destruct (consistent_step _ _ _ _ _ _ _ _ _ _ C E) as (C1 & B1 & _). destruct (IH _ _ C1 H) as (C2 & B2). split; [exact C2|lra].
Qed.
