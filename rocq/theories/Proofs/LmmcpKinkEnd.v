From Coq Require Import Reals Arith Lia Lra Psatz String.
From Verif.Base Require Import Prelude Sums Norms Ext.
From Verif.Model Require Import Complementarity Lmmcp.
From Verif.Spec Require Import Complementarity Subdifferential.
From Verif.Proofs Require Import FischerBurmeister NewtonProofs LmmcpProofs LmmcpFinal LmmcpKinks LmmcpClarke LmmcpTerms LmmcpRows.
Open Scope R_scope.

Lemma all_rows : forall nan o n F DF lb ub x i, (i < n)%nat -> bounds_ok (Big o) (lb i) (ub i) ->
  (forall u v, (forall i, (i < n)%nat -> u i = v i) -> forall i, (i < n)%nat -> F u i = F v i) ->
  smooth_at n F DF x ->
  clear_of (2 / 100000000) (lower_cut (Big o) (lb i)) (upper_cut (Big o) (ub i)) (x i) (F x i) ->
  generalised_gradient n (fun y => Phi nan o n F lb ub y (n + i)%nat) x (DPhi nan o n F DF lb ub x (n + i)%nat) /\
  (~ (lower_cut (Big o) (lb i) = Fin (x i) /\ upper_cut (Big o) (ub i) <> PInf /\ F x i = 0) ->
   generalised_gradient n (fun y => Phi nan o n F lb ub y i) x (DPhi nan o n F DF lb ub x i)).
Proof.
  intros nan o n F DF lb ub x i Hi Hok Hext Hs Hc. split.
  - apply second_row; assumption.
  - intros Hex. apply gg_limit. apply first_row; assumption.
Qed.

Lemma PhiFB_mono : forall a b a' b', a <= a' -> b <= b' -> PhiFB a b <= PhiFB a' b'.
Proof.
  intros a b a' b' Ha Hb. unfold PhiFB.
  pose proof (sqrt_ge_l a b). pose proof (sqrt_ge_r a b). pose proof (sqrt_sq a b) as S1. pose proof (sqrt_sq a' b') as S2.
  pose proof (sqrt_pos (a ^ 2 + b ^ 2)). pose proof (sqrt_pos (a' ^ 2 + b' ^ 2)).
  set (s := sqrt (a ^ 2 + b ^ 2)) in *. set (s' := sqrt (a' ^ 2 + b' ^ 2)) in *.
  assert (s' <= s + (a' - a) + (b' - b)); [|lra].
  apply Rsqr_incr_0_var; [|lra]. unfold Rsqr.
  set (p := a' - a). set (q := b' - b). replace a' with (a + p) in S2 by (unfold p; ring). replace b' with (b + q) in S2 by (unfold q; ring).
  assert (0 <= p) by (unfold p; lra). assert (0 <= q) by (unfold q; lra).
  assert (0 <= (s - a) * p) by (apply Rmult_le_pos; lra). assert (0 <= (s - b) * q) by (apply Rmult_le_pos; lra).
  assert (0 <= s * p) by (apply Rmult_le_pos; lra). assert (0 <= p * q) by (apply Rmult_le_pos; lra).
  assert (0 <= s * q) by (apply Rmult_le_pos; lra). nra.
Qed.

Lemma decreasing_gradient : forall f y g, (forall h, 0 < h -> f (moved y 0 h) <= f (moved y 0 0)) -> gradient_at 1 f y g -> g 0%nat <= 0.
Proof.
  intros f y g Hf Hg. destruct (Rle_dec (g 0%nat) 0) as [H|H]; [exact H|]. exfalso.
  destruct (Hg 0%nat ltac:(lia) (g 0%nat) ltac:(lra)) as (d & Hd).
  specialize (Hd (d / 2) ltac:(pose proof (cond_pos d); lra) ltac:(rewrite Rabs_right by (pose proof (cond_pos d); lra); pose proof (cond_pos d); lra)).
  cbv beta in Hd. rewrite Rplus_0_l in Hd. pose proof (cond_pos d) as Hp.
  specialize (Hf (d / 2) ltac:(lra)).
  assert ((f (moved y 0 (d / 2)) - f (moved y 0 0)) / (d / 2) <= 0).
  { apply (Rmult_le_reg_r (d / 2)); [lra|]. unfold Rdiv at 1. rewrite Rmult_assoc, Rinv_l by lra. lra. }
  rewrite Rabs_left in Hd by lra. lra.
Qed.

(** One unknown between 0 and 4, F x = 5 x, at x = 0. *)
Definition five (y : nat -> R) (k : nat) : R := 5 * y 0%nat.
Definition five' (y : nat -> R) (i j : nat) : R := 5.

Lemma five_smooth : forall x, smooth_at 1 five five' x.
Proof.
  intros x. split.
  - exists 1. split; [lra|]. intros y _ v i _. unfold five, five'. cbn [rsum].
    eapply derivable_ext'; [| |apply derivable_pt_lim_plus; [apply (derivable_pt_lim_const (5 * y 0%nat))|
      apply (derivable_pt_lim_scal _ (5 * v 0%nat) _ _ (derivable_pt_lim_id 0))]].
    + intros h. unfold plus_fct, fct_cte, mult_real_fct, id. ring.
    + ring.
  - intros eps He. exists 1. split; [lra|]. intros. unfold five'. rewrite Rminus_diag_eq by reflexivity. rewrite Rabs_R0. exact He.
Qed.

Lemma four_index : forall o, 4 < Big o -> indexset (Big o) (Fin 0) (Fin 4) = 3%nat /\ bounds_ok (Big o) (Fin 0) (Fin 4) /\
  lower_cut (Big o) (Fin 0) = Fin 0 /\ upper_cut (Big o) (Fin 4) = Fin 4.
Proof.
  intros o H. unfold indexset, bounds_ok, lower_cut, upper_cut, ext_gtb, ext_ltb, ext_leb, ext_geb.
  repeat match goal with
  | |- context [Rle_dec ?a ?b] => destruct (Rle_dec a b); [try lra|try lra]
  | |- context [Rlt_dec ?a ?b] => destruct (Rlt_dec a b); [try lra|try lra]
  end; cbn; repeat split; try reflexivity; try congruence; try lra; intro E; injection E; intros; lra.
Qed.

Lemma lower_kink_wrong : forall nan o, 4 < Big o ->
  let f := fun y => Phi nan o 1 five (fun _ => Fin 0) (fun _ => Fin 4) y 0%nat in
  DPhi nan o 1 five five' (fun _ => Fin 0) (fun _ => Fin 4) (fun _ => 0) 0%nat 0%nat = 2 /\
  forall g, generalised_gradient 1 f (fun _ => 0) g -> g 0%nat <= 0.
Proof.
  intros nan o HB f. destruct (four_index o HB) as (EI & _). split.
  - unfold DPhi, DPhi3MCPPFB, ind. cbn [Nat.ltb Nat.leb Nat.eqb rsum]. rewrite EI.
    assert (Z : zvec (Fin 0) (Fin 4) 0 (five (fun _ => 0) 0%nat) = 1).
    { unfold zvec, five. replace (5 * 0) with 0 by ring. unfold beta_l. rewrite near_refl, small_0. reflexivity. }
    rewrite Z. unfold five, five'. replace (5 * 0) with 0 by ring. unfold DPhi_ab.
    unfold beta_l, beta_u. rewrite near_refl, small_0.
    assert (N : near (Fin 4) 0 = false).
    { unfold near, dnull. replace (0 - 4) with (- (4)) by ring. rewrite Rabs_Ropp, Rabs_right by lra. destruct (Rle_dec _ _); [lra|reflexivity]. }
    rewrite N. cbn [andb fin]. cbv beta iota zeta.
    replace ((4 - 0) ^ 2 + 0 ^ 2) with (4 * 4) by ring. rewrite sqrt_square by lra.
    replace (1 ^ 2 + (0 * 1 + 0 * (0 + 5 * 1)) ^ 2) with 1 by ring. rewrite sqrt_1.
    rewrite (Rmax_right dnull 4) by (unfold dnull; lra). rewrite (Rmax_right dnull 1) by (unfold dnull; lra).
    unfold lambda1. field.
  - assert (M : forall y h, 0 < h -> f (moved y 0 h) <= f (moved y 0 0)).
    { intros y h Hh. unfold f, Phi, Phi3MCPPFB, ind. cbn [Nat.ltb Nat.leb]. rewrite EI, !Phi_first_3.
      unfold five, moved. cbn [Nat.eqb]. rewrite Rplus_0_r.
      assert (PhiFB (y 0%nat - 0) (- PhiFB (4 - y 0%nat) (- (5 * y 0%nat)))
        <= PhiFB (y 0%nat + h - 0) (- PhiFB (4 - (y 0%nat + h)) (- (5 * (y 0%nat + h))))).
      { apply PhiFB_mono; [lra|]. apply Ropp_le_contravar. apply PhiFB_mono; lra. }
      unfold lambda1. lra. }
    intros g Hg. induction Hg as [g H|c g1 g2 g Hc H1 IH1 H2 IH2 H].
    + destruct (Rle_dec (g 0%nat) 0) as [Hle|Hle]; [exact Hle|]. exfalso.
      destruct (H (g 0%nat) ltac:(lra)) as (y & g' & _ & Hg & Hd).
      pose proof (decreasing_gradient f y g' (M y) Hg). specialize (Hd 0%nat ltac:(lia)).
      rewrite Rabs_left in Hd by lra. lra.
    + rewrite (H 0%nat ltac:(lia)). nra.
Qed.

(** A point on two kinks (the upper bound of the first component, F = 0 inside the bounds of the second). *)
Lemma clear_example : clear_of (2 / 100000000) (Fin 0) (Fin 4) 4 0 /\ clear_of (2 / 100000000) (Fin 0) (Fin 4) 1 0 /\
  clear_of (2 / 100000000) (Fin 0) PInf 0 0.
Proof.
  assert (A : forall a, 1 <= a -> zero_or_above (2 / 100000000) a) by (intros a Ha; right; rewrite Rabs_right; lra).
  assert (Z : forall a, a = 0 -> zero_or_above (2 / 100000000) a) by (intros a ->; left; reflexivity).
  repeat split; intros; try discriminate; repeat match goal with E : Fin _ = Fin _ |- _ => injection E; clear E; intros; subst end;
    try (apply A; lra); try (apply Z; lra); lra.
Qed.

(** ** Points close to a kink *)

Lemma slope_gradient : forall f y g k d0, 0 < d0 -> (forall h, 0 < h < d0 -> f (moved y 0 h) <= f (moved y 0 0) - k * h) ->
  gradient_at 1 f y g -> g 0%nat <= - k.
Proof.
  intros f y g k d0 Hd0 Hf Hg. destruct (Rle_dec (g 0%nat) (- k)) as [H|H]; [exact H|]. exfalso.
  destruct (Hg 0%nat ltac:(lia) (g 0%nat + k) ltac:(lra)) as (d & Hd). pose proof (cond_pos d) as Hp.
  set (h := Rmin (d / 2) (d0 / 2)).
  assert (Hh : 0 < h < d0 /\ h < d) by (unfold h, Rmin; destruct (Rle_dec _ _); lra).
  specialize (Hd h ltac:(lra) ltac:(rewrite Rabs_right; lra)). cbv beta in Hd. rewrite Rplus_0_l in Hd.
  specialize (Hf h (proj1 Hh)).
  assert ((f (moved y 0 h) - f (moved y 0 0)) / h <= - k).
  { apply (Rmult_le_reg_r h); [lra|]. unfold Rdiv at 1. rewrite Rmult_assoc, Rinv_l by lra. lra. }
  rewrite Rabs_left in Hd by lra. lra.
Qed.

Lemma one_sided : forall k e f x, 0 < e -> (forall y g, close 1 e x y -> gradient_at 1 f y g -> g 0%nat <= k) ->
  forall g, generalised_gradient 1 f x g -> g 0%nat <= k.
Proof.
  intros k e f x He Hf g Hg. induction Hg as [g H|c g1 g2 g Hc H1 IH1 H2 IH2 H].
  - destruct (Rle_dec (g 0%nat) k) as [Hle|Hle]; [exact Hle|]. exfalso.
    destruct (H (Rmin e (g 0%nat - k)) ltac:(apply Rmin_glb_lt; lra)) as (y & g' & Hy & Hg' & Hd).
    specialize (Hd 0%nat ltac:(lia)). pose proof (Rmin_l e (g 0%nat - k)). pose proof (Rmin_r e (g 0%nat - k)).
    assert (g' 0%nat <= k). { apply (Hf y g'); [|exact Hg']. intros i Hi. specialize (Hy i Hi). lra. }
    rewrite Rabs_left in Hd by lra. lra.
  - rewrite (H 0%nat ltac:(lia)). nra.
Qed.

Lemma opposite : forall f x g, generalised_gradient 1 f x g -> generalised_gradient 1 (fun y => - f y) x (fun j => - g j).
Proof.
  intros f x g Hg. induction Hg as [g H|c g1 g2 g Hc H1 IH1 H2 IH2 H].
  - apply gg_limit. intros eps He. destruct (H eps He) as (y & g' & Hy & Hg & Hd). exists y, (fun j => - g' j). split; [exact Hy|]. split.
    + intros j Hj. apply (derivable_pt_lim_opp (fun h => f (moved y j h))). apply Hg. exact Hj.
    + intros j Hj. replace (- g' j - - g j) with (- (g' j - g j)) by ring. rewrite Rabs_Ropp. apply Hd. exact Hj.
  - apply (gg_mix _ _ _ c (fun j => - g1 j) (fun j => - g2 j)); [exact Hc|exact IH1|exact IH2|]. intros j Hj. rewrite (H j Hj). ring.
Qed.

Lemma lower_index : forall o, 0 < Big o -> indexset (Big o) (Fin 0) PInf = 1%nat /\ bounds_ok (Big o) (Fin 0) PInf.
Proof.
  intros o H. split.
  - unfold indexset, ext_gtb, ext_ltb, ext_leb, ext_geb. cbn.
    repeat match goal with
    | |- context [Rle_dec ?a ?b] => destruct (Rle_dec a b); [try lra|try lra]
    | |- context [Rlt_dec ?a ?b] => destruct (Rlt_dec a b); [try lra|try lra]
    end; reflexivity.
  - unfold bounds_ok. repeat split; try discriminate; [intro E; injection E; lra|].
    unfold lower_cut, upper_cut, ext_gtb, ext_ltb, ext_leb, ext_geb. cbn.
    repeat match goal with
    | |- context [Rle_dec ?a ?b] => destruct (Rle_dec a b); [try lra|try lra]
    | |- context [Rlt_dec ?a ?b] => destruct (Rlt_dec a b); [try lra|try lra]
    end; cbn; try exact I; lra.
Qed.

(** F is slightly negative at x = 1: the product in the second block is zero around, and so is its gradient. *)
Definition shifted (y : nat -> R) (k : nat) : R := y 0%nat - 1 - 5 / 1000000000.

Lemma near_kink_second : forall nan o, 0 < Big o ->
  let f := fun y => Phi nan o 1 shifted (fun _ => Fin 0) (fun _ => PInf) y 1%nat in
  DPhi nan o 1 shifted (fun _ _ _ => 1) (fun _ => Fin 0) (fun _ => PInf) (fun _ => 1) 1%nat 0%nat = 9 / 10 * (1 - 5 / 1000000000) /\
  forall g, generalised_gradient 1 f (fun _ => 1) g -> g 0%nat = 0.
Proof.
  intros nan o HB f. destruct (lower_index o HB) as (EI & _). split.
  - unfold DPhi, DPhi3MCPPFB, ind. cbn [Nat.ltb Nat.leb Nat.eqb Nat.sub]. rewrite EI. cbn [DPhi_H2].
    unfold shifted, alpha_l, above, dnull. destruct (Rle_dec _ (1 - 0)); [|lra]. destruct (Rle_dec _ (1 - 1 - _)); [|lra].
    cbn [andb fin]. unfold lambda2, lambda1. lra.
  - assert (Z : forall y, 0 < y 0%nat < 1 + 5 / 1000000000 -> f y = 0).
    { intros y Hy. unfold f, Phi, Phi3MCPPFB, ind. cbn [Nat.ltb Nat.leb Nat.sub]. rewrite EI. cbn [Phi_second]. unfold shifted.
      rewrite (Rmax_left 0 (y 0%nat - 1 - 5 / 1000000000)) by lra. ring. }
    assert (L : forall y g, close 1 (1 / 1000000000) (fun _ => 1) y -> gradient_at 1 f y g -> g 0%nat <= 0).
    { intros y g Hy Hg. specialize (Hy 0%nat ltac:(lia)). cbv beta in Hy. apply Rabs_def2 in Hy.
      replace 0 with (- 0) by ring. apply (slope_gradient f y g 0 (1 / 1000000000) ltac:(lra)); [|exact Hg].
      intros h Hh. rewrite !Z; [lra| |]; unfold moved; cbn [Nat.eqb]; lra. }
    assert (U : forall y g, close 1 (1 / 1000000000) (fun _ => 1) y -> gradient_at 1 (fun y => - f y) y g -> g 0%nat <= 0).
    { intros y g Hy Hg. specialize (Hy 0%nat ltac:(lia)). cbv beta in Hy. apply Rabs_def2 in Hy.
      replace 0 with (- 0) by ring. apply (slope_gradient (fun y => - f y) y g 0 (1 / 1000000000) ltac:(lra)); [|exact Hg].
      intros h Hh. cbv beta. rewrite !Z; [lra| |]; unfold moved; cbn [Nat.eqb]; lra. }
    intros g Hg. pose proof (one_sided 0 (1 / 1000000000) _ _ ltac:(lra) L g Hg).
    pose proof (one_sided 0 (1 / 1000000000) _ _ ltac:(lra) U _ (opposite _ _ _ Hg)) as H2. cbv beta in H2. lra.
Qed.

(** F is constant and small, x close to its bound: the slope of the first residual is -lambda1 (1 - 1/sqrt 2). *)
Definition slight (y : nat -> R) (k : nat) : R := 5 / 1000000000.

Lemma near_kink_first : forall nan o, 0 < Big o ->
  let f := fun y => Phi nan o 1 slight (fun _ => Fin 0) (fun _ => PInf) y 0%nat in
  DPhi nan o 1 slight (fun _ _ _ => 0) (fun _ => Fin 0) (fun _ => PInf) (fun _ => 5 / 1000000000) 0%nat 0%nat = 0 /\
  forall g, generalised_gradient 1 f (fun _ => 5 / 1000000000) g -> g 0%nat <= - (1 / 100).
Proof.
  intros nan o HB f. destruct (lower_index o HB) as (EI & _). split.
  - unfold DPhi, DPhi3MCPPFB, ind. cbn [Nat.ltb Nat.leb Nat.eqb rsum]. rewrite EI.
    assert (B : beta_l (Fin 0) (5 / 1000000000) (5 / 1000000000) = true).
    { unfold beta_l, near, small, dnull. rewrite Rminus_0_r, Rabs_right by lra. destruct (Rle_dec _ _); [reflexivity|lra]. }
    unfold zvec, slight. rewrite B. cbn [orb DPhi_ab fin]. rewrite B.
    replace (1 ^ 2 + (0 + 0 * 1) ^ 2) with 1 by ring. rewrite sqrt_1, (Rmax_right dnull 1) by (unfold dnull; lra).
    unfold lambda1. field.
  - apply (one_sided _ (5 / 2000000000)); [lra|]. intros y g Hy Hg. specialize (Hy 0%nat ltac:(lia)). cbv beta in Hy. apply Rabs_def2 in Hy.
    set (c := 5 / 1000000000) in *.
    apply (slope_gradient f y g (1 / 100) (1 / 1000000000) ltac:(lra)); [|exact Hg]. intros h Hh.
    unfold f, Phi, Phi3MCPPFB, ind. cbn [Nat.ltb Nat.leb]. rewrite EI. cbn [Phi_first fin]. unfold moved, slight. cbn [Nat.eqb]. fold c.
    rewrite !Rplus_0_r, !Rminus_0_r. set (t := y 0%nat) in *.
    assert (Hc : c = 5 / 1000000000) by reflexivity. clearbody c t. assert (Ht : c / 2 < t < 3 * c / 2) by lra.
    pose proof (sqrt_pos (t ^ 2 + c ^ 2)) as P1. pose proof (sqrt_sqrt (t ^ 2 + c ^ 2) ltac:(nra)) as S1.
    pose proof (sqrt_pos ((t + h) ^ 2 + c ^ 2)) as P2. pose proof (sqrt_sqrt ((t + h) ^ 2 + c ^ 2) ltac:(nra)) as S2.
    set (s := sqrt (t ^ 2 + c ^ 2)) in *. set (s' := sqrt ((t + h) ^ 2 + c ^ 2)) in *. clearbody s s'.
    assert (Hs : 6 / 5 * t <= s). { apply Rsqr_incr_0_var; [|exact P1]. unfold Rsqr. nra. }
    assert (s' <= s + 9 / 10 * h). { apply Rsqr_incr_0_var; [|lra]. unfold Rsqr. rewrite S2. nra. }
    unfold lambda1. lra.
Qed.

Lemma shifted_smooth : forall x, smooth_at 1 shifted (fun _ _ _ => 1) x.
Proof.
  intros x. split.
  - exists 1. split; [lra|]. intros y _ v i _. unfold shifted. cbn [rsum].
    eapply derivable_ext'; [| |apply derivable_pt_lim_plus; [apply (derivable_pt_lim_const (y 0%nat - 1 - 5 / 1000000000))|
      apply (derivable_pt_lim_scal _ (v 0%nat) _ _ (derivable_pt_lim_id 0))]].
    + intros h. unfold plus_fct, fct_cte, mult_real_fct, id. ring.
    + ring.
  - intros eps He. exists 1. split; [lra|]. intros. rewrite Rminus_diag_eq by reflexivity. rewrite Rabs_R0. exact He.
Qed.

Lemma slight_smooth : forall x, smooth_at 1 slight (fun _ _ _ => 0) x.
Proof.
  intros x. split.
  - exists 1. split; [lra|]. intros y _ v i _. unfold slight. cbn [rsum].
    replace (0 + 0 * v 0%nat) with 0 by ring. apply derivable_pt_lim_const.
  - intros eps He. exists 1. split; [lra|]. intros. rewrite Rminus_diag_eq by reflexivity. rewrite Rabs_R0. exact He.
Qed.
