(** Fischer-Burmeister functions: sign and zero characterisations, derivatives. *)
From Coq Require Import Reals Arith Lia Lra.
From Verif.Base Require Import Prelude Ext.
From Verif.Model Require Import Complementarity.
From Verif.Spec Require Import Complementarity.
Open Scope R_scope.

Lemma sq_sum_nonneg : forall a b, 0 <= a ^ 2 + b ^ 2.
Proof. intros. pose proof (pow2_ge_0 a). pose proof (pow2_ge_0 b). lra. Qed.

Lemma sqrt_sq : forall a b, sqrt (a ^ 2 + b ^ 2) ^ 2 = a ^ 2 + b ^ 2.
Proof. intros. rewrite pow2_sqrt; [reflexivity|apply sq_sum_nonneg]. Qed.

Lemma sqrt_ge_abs : forall a b, Rabs a <= sqrt (a ^ 2 + b ^ 2).
Proof.
  intros a b. rewrite <- sqrt_Rsqr_abs. apply sqrt_le_1_alt. unfold Rsqr.
  pose proof (pow2_ge_0 b). lra.
Qed.

Lemma sqrt_ge_l : forall a b, a <= sqrt (a ^ 2 + b ^ 2) /\ - a <= sqrt (a ^ 2 + b ^ 2).
Proof. intros a b. pose proof (sqrt_ge_abs a b). unfold Rabs in H. destruct (Rcase_abs a); lra. Qed.

Lemma sqrt_ge_r : forall a b, b <= sqrt (a ^ 2 + b ^ 2) /\ - b <= sqrt (a ^ 2 + b ^ 2).
Proof. intros a b. rewrite Rplus_comm. apply sqrt_ge_l. Qed.

(** Sign of the Fischer-Burmeister function. *)
Lemma PhiFB_pos_iff : forall a b, 0 < PhiFB a b <-> 0 < a /\ 0 < b.
Proof.
  intros a b. unfold PhiFB.
  pose proof (sqrt_pos (a ^ 2 + b ^ 2)) as Hs. pose proof (sqrt_sq a b) as Hq.
  pose proof (sqrt_ge_l a b). pose proof (sqrt_ge_r a b).
  set (s := sqrt _) in *. split.
  - intros Hp. split; nra.
  - intros [Ha Hb]. assert (s < a + b); [|lra].
    destruct (Rlt_le_dec s (a + b)); [assumption|exfalso]. nra.
Qed.

Lemma PhiFB_zero_iff : forall a b, PhiFB a b = 0 <-> 0 <= a /\ 0 <= b /\ a * b = 0.
Proof.
  intros a b. unfold PhiFB.
  pose proof (sqrt_pos (a ^ 2 + b ^ 2)) as Hs. pose proof (sqrt_sq a b) as Hq.
  pose proof (sqrt_ge_l a b). pose proof (sqrt_ge_r a b).
  set (s := sqrt _) in *. split.
  - intros Hp. assert (E : s = a + b) by lra. rewrite E in *. repeat split; nra.
  - intros (Ha & Hb & Hab). assert (s = a + b); [|lra].
    assert (Hsq : (s - (a + b)) * (s + (a + b)) = 0) by nra.
    apply Rmult_integral in Hsq as [|]; [lra|].
    assert (s = 0) by lra. lra.
Qed.

Lemma PhiFB_neg_iff : forall a b, PhiFB a b < 0 <-> a < 0 \/ b < 0.
Proof.
  intros a b. pose proof (PhiFB_pos_iff a b) as Hp. pose proof (PhiFB_zero_iff a b) as Hz.
  split.
  - intros Hn. destruct (Rlt_le_dec a 0); [left; assumption|].
    destruct (Rlt_le_dec b 0); [right; assumption|exfalso].
    destruct (Rtotal_order a 0) as [?|[?|?]]; [lra| |].
    + assert (PhiFB a b = 0) by (apply Hz; subst; repeat split; lra). lra.
    + destruct (Rtotal_order b 0) as [?|[?|?]]; [lra| |].
      * assert (PhiFB a b = 0) by (apply Hz; subst; repeat split; lra). lra.
      * assert (0 < PhiFB a b) by (apply Hp; lra). lra.
  - intros H. destruct (Rtotal_order (PhiFB a b) 0) as [?|[E|?]]; [assumption| |].
    + apply Hz in E. lra.
    + apply Hp in H0. lra.
Qed.

(** Finite bounds. *)
Lemma smooth_FB_zero_iff : forall f x a b,
    a <= b -> (smooth_FB f x a b = 0 <-> mcp (Fin a) (Fin b) x f).
Proof.
  intros f x a b Hab. unfold smooth_FB, mcp. simpl. rewrite PhiFB_zero_iff.
  pose proof (PhiFB_pos_iff f (x - a)) as Hp.
  pose proof (PhiFB_neg_iff f (x - a)) as Hn.
  pose proof (PhiFB_zero_iff f (x - a)) as Hz.
  set (p := PhiFB f (x - a)) in *.
  split.
  - intros (H1 & H2 & H3).
    assert (Hnp : ~ (0 < f /\ 0 < x - a)) by (intro H; apply Hp in H; lra).
    assert (Hc : p = 0 \/ b - x = 0).
    { apply Rmult_integral in H3 as [?|?]; [left; lra|right; assumption]. }
    destruct Hc as [Hc|Hc].
    + apply Hz in Hc. destruct Hc as (H4 & H5 & H6).
      repeat split; try lra; intros.
      all: destruct (Rlt_le_dec 0 f); [exfalso; apply Hnp; lra|assumption].
    + assert (x = b) by lra. subst x. repeat split; try lra; intros.
      all: destruct (Rlt_le_dec 0 f); [exfalso; apply Hnp; lra|assumption].
  - intros (H1 & H2 & H3 & H4).
    assert (Hp0 : p <= 0).
    { destruct (Rlt_le_dec 0 p) as [Hgt|]; [exfalso|assumption].
      apply Hp in Hgt. specialize (H4 ltac:(lra)). lra. }
    split; [lra|]. split; [lra|].
    destruct (Rle_lt_or_eq_dec x b H2) as [Hlt|Heq].
    + assert (p = 0); [|subst p; nra]. apply Hz. specialize (H3 Hlt).
      split; [assumption|]. split; [lra|].
      destruct (Rle_lt_or_eq_dec a x H1) as [Hl|He].
      * specialize (H4 Hl). assert (f = 0) by lra. subst f. lra.
      * subst x. ring_simplify (a - a). ring.
    + subst x. ring.
Qed.

(** Infinite bounds make the jitted version return nan. *)
Lemma PhiFB_flt_inf : forall a s, PhiFB_flt (Num a) (Inf s) = if s then NaN else Inf false.
Proof. intros a [|]; reflexivity. Qed.

Lemma flt_of_sq : forall a b, flt_sqrt (flt_add (flt_sq (Num a)) (flt_sq (Num b))) = Num (sqrt (a ^ 2 + b ^ 2)).
Proof.
  intros a b. unfold flt_sq, flt_add, flt_sqrt.
  destruct (Rle_dec 0 (a ^ 2 + b ^ 2)) as [|Hn]; [reflexivity|]. destruct Hn. apply sq_sum_nonneg.
Qed.

Lemma PhiFB_flt_num : forall a b, PhiFB_flt (Num a) (Num b) = Num (PhiFB a b).
Proof. intros. unfold PhiFB_flt. rewrite flt_of_sq. reflexivity. Qed.

Lemma smooth_FB_flt_finite : forall f x a b,
    smooth_FB_flt f x (Fin a) (Fin b) = Num (smooth_FB f x a b).
Proof.
  intros. unfold smooth_FB_flt, smooth_FB. cbn [flt_of_ext flt_sub flt_add flt_opp].
  unfold flt_sub. cbn [flt_opp flt_add]. rewrite PhiFB_flt_num. cbn [flt_opp].
  rewrite PhiFB_flt_num. reflexivity.
Qed.

Lemma smooth_FB_flt_infinite : forall f x a b,
    a = MInf \/ b = PInf -> smooth_FB_flt f x a b = NaN.
Proof.
  intros f x a b [->| ->].
  - unfold smooth_FB_flt. simpl. destruct b; reflexivity.
  - unfold smooth_FB_flt. simpl.
    set (p := PhiFB_flt (Num f) _). destruct p as [|r|[|]]; reflexivity.
Qed.

(** ** ncpsolve *)

Lemma ncp_value_smooth : forall a b x f,
    - BIG < a -> b < BIG -> ncp_value (Fin a) (Fin b) x (- f) = Some (smooth_FB f x a b).
Proof.
  intros a b x f Ha Hb. unfold ncp_value, ncp_pval. cbn [ext_leb ext_geb].
  destruct (Rle_dec a (- BIG)); [lra|]. destruct (Rle_dec BIG b); [lra|].
  unfold smooth_FB, PhiFB.
  replace ((- f) ^ 2 + (a - x) ^ 2) with (f ^ 2 + (x - a) ^ 2) by ring.
  f_equal.
  replace (- f + sqrt (f ^ 2 + (x - a) ^ 2) + (a - x)) with (- (f + (x - a) - sqrt (f ^ 2 + (x - a) ^ 2))) by ring.
  ring.
Qed.

Lemma BIG_pos : 0 < BIG.
Proof. unfold BIG. lra. Qed.

Lemma fcmp_zero_iff : forall jt a b x f,
    jt <> JFull ->
    a <> PInf -> b <> MInf -> ext_le (lower_cut BIG a) (upper_cut BIG b) ->
    (fcmp_value jt a b x f = Some 0 <-> mcp (lower_cut BIG a) (upper_cut BIG b) x f).
Proof.
  intros jt a b x f Hjt Ha Hb Hab.
  assert (E : fcmp_value jt a b x f = ncp_value a b x (- f)) by (destruct jt; try reflexivity; contradiction).
  rewrite E. clear E Hjt jt.
  unfold lower_cut, upper_cut in *.
  destruct (ext_leb a (- BIG)) eqn:Ea; destruct (ext_geb b BIG) eqn:Eb.
  - unfold ncp_value, ncp_pval. rewrite Ea, Eb. unfold mcp; simpl. split.
    + intros H. injection H as H. repeat split; lra.
    + intros (_ & _ & H1 & H2). specialize (H1 I). specialize (H2 I). f_equal. lra.
  - destruct b as [|b|]; [contradiction| |discriminate Eb].
    unfold ncp_value, ncp_pval. rewrite Ea, Eb. unfold mcp; simpl.
    replace (- f - sqrt (- f * (- f * 1) + (b - x) * ((b - x) * 1)) + (b - x)) with (PhiFB (- f) (b - x))
      by (unfold PhiFB; simpl; ring).
    pose proof (PhiFB_zero_iff (- f) (b - x)) as Hz. split.
    + intros H. injection H as H. apply Hz in H. destruct H as (H1 & H2 & H3).
      split; [exact I|]. split; [lra|]. split; [intros; nra|intros; lra].
    + intros (_ & H1 & H2 & H3). f_equal. apply Hz. specialize (H3 I).
      split; [lra|]. split; [lra|]. destruct (Rle_lt_or_eq_dec x b H1) as [Hl|He].
      * specialize (H2 Hl). assert (f = 0) by lra. subst f. ring.
      * subst x. ring.
  - destruct a as [|a|]; [discriminate Ea| |contradiction].
    unfold ncp_value, ncp_pval. rewrite Ea, Eb. unfold mcp; simpl.
    replace (- f + sqrt (- f * (- f * 1) + (a - x) * ((a - x) * 1)) + (a - x)) with (- PhiFB f (x - a)).
    2:{ unfold PhiFB. replace (- f * (- f * 1) + (a - x) * ((a - x) * 1)) with (f ^ 2 + (x - a) ^ 2) by ring. ring. }
    pose proof (PhiFB_zero_iff f (x - a)) as Hz. split.
    + intros H. injection H as H. assert (H' : PhiFB f (x - a) = 0) by lra.
      apply Hz in H'. destruct H' as (H1 & H2 & H3).
      split; [lra|]. split; [exact I|]. split; [intros; lra|intros; nra].
    + intros (H1 & _ & H2 & H3). f_equal. assert (PhiFB f (x - a) = 0); [|lra]. apply Hz.
      specialize (H2 I). split; [lra|]. split; [lra|].
      destruct (Rle_lt_or_eq_dec a x H1) as [Hl|He].
      * specialize (H3 Hl). assert (f = 0) by lra. subst f. ring.
      * subst x. ring.
  - destruct a as [|a|]; [discriminate Ea| |contradiction].
    destruct b as [|b|]; [contradiction| |discriminate Eb].
    simpl in Ea, Eb. destruct (Rle_dec a (- BIG)); [discriminate|]. destruct (Rle_dec BIG b); [discriminate|].
    rewrite ncp_value_smooth by lra. simpl in Hab.
    rewrite <- (smooth_FB_zero_iff f x a b Hab). split; intro H; [injection H as H; exact H|f_equal; exact H].
Qed.

(** ** derivatives *)

(** [derivable_pt_lim] of a square root of a sum of two squares. *)
Lemma deriv_norm : forall (u v : R -> R) t du dv,
    derivable_pt_lim u t du -> derivable_pt_lim v t dv ->
    sqrt (u t ^ 2 + v t ^ 2) <> 0 ->
    derivable_pt_lim (fun s => sqrt (u s ^ 2 + v s ^ 2)) t
      ((u t * du + v t * dv) / sqrt (u t ^ 2 + v t ^ 2)).
Proof.
  intros u v t du dv Hu Hv Hs.
  assert (Hpos : 0 < u t ^ 2 + v t ^ 2).
  { destruct (Rle_lt_or_eq_dec _ _ (sq_sum_nonneg (u t) (v t))) as [H|H]; [exact H|].
    exfalso. apply Hs. rewrite <- H. apply sqrt_0. }
  assert (H2 : derivable_pt_lim (fun s => u s ^ 2 + v s ^ 2) t (2 * (u t * du + v t * dv))).
  { apply (derivable_pt_lim_ext (fun s => u s * u s + v s * v s)); [intros; ring|].
    replace (2 * (u t * du + v t * dv)) with ((du * u t + u t * du) + (dv * v t + v t * dv)) by ring.
    apply (derivable_pt_lim_plus (fun s => u s * u s) (fun s => v s * v s));
      apply derivable_pt_lim_mult; assumption. }
  pose proof (derivable_pt_lim_sqrt _ Hpos) as H3.
  pose proof (derivable_pt_lim_comp _ sqrt t _ _ H2 H3) as H4.
  replace ((u t * du + v t * dv) / sqrt (u t ^ 2 + v t ^ 2))
    with (/ (2 * sqrt (u t ^ 2 + v t ^ 2)) * (2 * (u t * du + v t * dv))).
  - exact H4.
  - field. exact Hs.
Qed.

Lemma PhiFB_deriv : forall (u v : R -> R) t du dv,
    derivable_pt_lim u t du -> derivable_pt_lim v t dv ->
    sqrt (u t ^ 2 + v t ^ 2) <> 0 ->
    derivable_pt_lim (fun s => PhiFB (u s) (v s)) t
      (snd (fst (PhiFB_ (u t) (v t))) * du + snd (PhiFB_ (u t) (v t)) * dv).
Proof.
  intros u v t du dv Hu Hv Hs. unfold PhiFB_, PhiFB.
  destruct (Req_EM_T (sqrt (u t ^ 2 + v t ^ 2)) 0) as [E|NE]; [contradiction|]. cbn [fst snd].
  pose proof (derivable_pt_lim_minus _ _ _ _ _
               (derivable_pt_lim_plus _ _ _ _ _ Hu Hv) (deriv_norm u v t du dv Hu Hv Hs)) as H.
  unfold minus_fct, plus_fct in H.
  match type of H with derivable_pt_lim _ _ ?d =>
    match goal with |- derivable_pt_lim _ _ ?e => replace e with d; [exact H|] end end.
  field. exact Hs.
Qed.

Lemma PhiFB__value : forall a b, fst (fst (PhiFB_ a b)) = PhiFB a b.
Proof. intros. unfold PhiFB_, PhiFB. destruct (Req_EM_T _ 0); reflexivity. Qed.

(** Partial derivatives, one at a time. *)
Lemma PhiFB__partials : forall a b,
    (a, b) <> (0, 0) ->
    derivable_pt_lim (fun s => PhiFB s b) a (snd (fst (PhiFB_ a b))) /\
    derivable_pt_lim (fun s => PhiFB a s) b (snd (PhiFB_ a b)).
Proof.
  intros a b Hab.
  assert (Hs : sqrt (a ^ 2 + b ^ 2) <> 0).
  { intro E. apply Hab. pose proof (sqrt_sq a b) as Q. rewrite E in Q.
    assert (a = 0) by nra. assert (b = 0) by nra. subst; reflexivity. }
  split.
  - pose proof (PhiFB_deriv (fun s => s) (fun _ => b) a 1 0 (derivable_pt_lim_id a) (derivable_pt_lim_const b a) Hs) as H.
    cbv beta in H. replace (snd (fst (PhiFB_ a b))) with (snd (fst (PhiFB_ a b)) * 1 + snd (PhiFB_ a b) * 0) by ring. exact H.
  - pose proof (PhiFB_deriv (fun _ => a) (fun s => s) b 0 1 (derivable_pt_lim_const a b) (derivable_pt_lim_id b) Hs) as H.
    cbv beta in H. replace (snd (PhiFB_ a b)) with (snd (fst (PhiFB_ a b)) * 0 + snd (PhiFB_ a b) * 1) by ring. exact H.
Qed.

Lemma smooth_FB__correct : forall (f : R -> R) x a b df,
    derivable_pt_lim f x df ->
    (f x, x - a) <> (0, 0) -> (PhiFB (f x) (x - a), b - x) <> (0, 0) ->
    fst (smooth_FB_ (f x) x a b df) = smooth_FB (f x) x a b /\
    derivable_pt_lim (fun s => smooth_FB (f s) s a b) x (snd (smooth_FB_ (f x) x a b df)).
Proof.
  intros f x a b df Hf H1 H2. unfold smooth_FB_.
  destruct (PhiFB_ (f x) (x - a)) as [[P1 d1] d2] eqn:E1.
  destruct (PhiFB_ (- P1) (b - x)) as [[P2 d3] d4] eqn:E2. cbn [fst snd].
  assert (HP1 : P1 = PhiFB (f x) (x - a)) by (rewrite <- PhiFB__value, E1; reflexivity).
  assert (HP2 : P2 = PhiFB (- P1) (b - x)) by (rewrite <- PhiFB__value, E2; reflexivity).
  assert (Hnz : forall u v, (u, v) <> (0, 0) -> sqrt (u ^ 2 + v ^ 2) <> 0).
  { intros u v Huv E. apply Huv. pose proof (sqrt_sq u v) as Q. rewrite E in Q.
    assert (u = 0) by nra. assert (v = 0) by nra. subst; reflexivity. }
  split; [rewrite HP2, HP1; reflexivity|].
  assert (Hxa : derivable_pt_lim (fun s => s - a) x 1).
  { replace 1 with (1 - 0) by ring. apply (derivable_pt_lim_minus (fun s => s) (fun _ => a));
      [apply derivable_pt_lim_id|apply derivable_pt_lim_const]. }
  assert (Hbx : derivable_pt_lim (fun s => b - s) x (-1)).
  { replace (-1) with (0 - 1) by ring. apply (derivable_pt_lim_minus (fun _ => b) (fun s => s));
      [apply derivable_pt_lim_const|apply derivable_pt_lim_id]. }
  pose proof (PhiFB_deriv f (fun s => s - a) x df 1 Hf Hxa (Hnz _ _ H1)) as D1.
  cbv beta in D1. rewrite E1 in D1. cbn [fst snd] in D1.
  pose proof (derivable_pt_lim_opp _ _ _ D1) as D1'. unfold opp_fct in D1'.
  assert (Hs2 : sqrt ((- PhiFB (f x) (x - a)) ^ 2 + (b - x) ^ 2) <> 0).
  { replace ((- PhiFB (f x) (x - a)) ^ 2) with (PhiFB (f x) (x - a) ^ 2) by ring. apply Hnz; exact H2. }
  pose proof (PhiFB_deriv (fun s => - PhiFB (f s) (s - a)) (fun s => b - s) x _ _ D1' Hbx Hs2) as D2.
  cbv beta in D2. rewrite <- HP1, E2 in D2. cbn [fst snd] in D2.
  unfold smooth_FB. replace (- d3 * (d1 * df + d2) - d4) with (d3 * - (d1 * df + d2 * 1) + d4 * -1) by ring.
  exact D2.
Qed.

(** ncpsolve's Jacobian.  [X] is the variable of the row along a curve, [F] the (sign
    reverted) residual of the row along the same curve. *)
Lemma ncp_deriv : forall a b (X F : R -> R) t dX dF ff xx,
    derivable_pt_lim X t dX -> derivable_pt_lim F t dF ->
    ncp_coefs a b (X t) (F t) = Some (ff, xx) ->
    exists V, (forall s, ncp_value a b (X s) (F s) = Some (V s)) /\
              derivable_pt_lim V t (ff * dF - xx * dX).
Proof.
  intros a b X F t dX dF ff xx HX HF HC. unfold ncp_coefs in HC.
  assert (HP : exists P dpdy dpdz, (forall s, ncp_pval a (X s) (F s) = Some (P s)) /\
      ncp_dp a (X t) (F t) = Some (dpdy, dpdz) /\
      derivable_pt_lim P t (dpdy * dF - dpdz * dX)).
  { unfold ncp_pval, ncp_dp in *. destruct (ext_leb a (- BIG)).
    - exists F, 1, 0. split; [reflexivity|]. split; [reflexivity|].
      replace (1 * dF - 0 * dX) with dF by ring. exact HF.
    - destruct a as [|r|]; try discriminate.
      destruct (Req_EM_T (sqrt (F t ^ 2 + (r - X t) ^ 2)) 0) as [E|NE]; [discriminate|].
      exists (fun s => F s + sqrt (F s ^ 2 + (r - X s) ^ 2) + (r - X s)).
      eexists. eexists. split; [reflexivity|]. split; [reflexivity|].
      assert (HrX : derivable_pt_lim (fun s => r - X s) t (- dX)).
      { replace (- dX) with (0 - dX) by ring. apply (derivable_pt_lim_minus (fun _ => r) X);
          [apply derivable_pt_lim_const|exact HX]. }
      pose proof (derivable_pt_lim_plus _ _ _ _ _
         (derivable_pt_lim_plus _ _ _ _ _ HF (deriv_norm F (fun s => r - X s) t dF (- dX) HF HrX NE)) HrX) as D.
      unfold plus_fct in D.
      match type of D with derivable_pt_lim _ _ ?d =>
        match goal with |- derivable_pt_lim _ _ ?e => replace e with d; [exact D|] end end.
      field. exact NE. }
  destruct HP as (P & dpdy & dpdz & HPv & HPd & HPD).
  rewrite (HPv t), HPd in HC.
  destruct (ncp_dm b (X t) (P t)) as [[dmdy dmdz]|] eqn:EM; [|discriminate]. injection HC as <- <-.
  unfold ncp_value, ncp_dm in *.
  destruct (ext_geb b BIG).
  - injection EM as <- <-. exists P. split; [intro s; rewrite HPv; reflexivity|].
    replace (1 * dpdy * dF - (1 * dpdz + 0) * dX) with (dpdy * dF - dpdz * dX) by ring. exact HPD.
  - destruct b as [|r|]; try discriminate.
    destruct (Req_EM_T (sqrt (P t ^ 2 + (r - X t) ^ 2)) 0) as [E|NE]; [discriminate|].
    assert (Ey : dmdy = 1 - P t / sqrt (P t ^ 2 + (r - X t) ^ 2)) by congruence.
    assert (Ez : dmdz = 1 - (r - X t) / sqrt (P t ^ 2 + (r - X t) ^ 2)) by congruence.
    rewrite Ey, Ez. clear Ey Ez EM.
    exists (fun s => P s - sqrt (P s ^ 2 + (r - X s) ^ 2) + (r - X s)).
    split; [intro s; rewrite HPv; reflexivity|].
    assert (HrX : derivable_pt_lim (fun s => r - X s) t (- dX)).
    { replace (- dX) with (0 - dX) by ring. apply (derivable_pt_lim_minus (fun _ => r) X);
        [apply derivable_pt_lim_const|exact HX]. }
    pose proof (derivable_pt_lim_plus _ _ _ _ _
       (derivable_pt_lim_minus _ _ _ _ _ HPD (deriv_norm P (fun s => r - X s) t _ (- dX) HPD HrX NE)) HrX) as D.
    unfold plus_fct, minus_fct in D.
    match type of D with derivable_pt_lim _ _ ?d =>
      match goal with |- derivable_pt_lim _ _ ?e => replace e with d; [exact D|] end end.
    field. exact NE.
Qed.

(** A square system: [X] the unknowns, perturbed in direction [j]; [J] the Jacobian of
    the sign-reverted residual. *)
Lemma ncp_jacobian : forall jt n (a b : nat -> ext) (F : (nat -> R) -> nat -> R)
                            (J : nat -> nat -> R) x i j d,
    jt <> JFull -> (i < n)%nat -> (j < n)%nat ->
    derivable_pt_lim (fun h => F (fun k => x k + (if Nat.eqb k j then h else 0)) i) 0 (J i j) ->
    ncp_smooth_jac jt (a i) (b i) (x i) (F x i) (Nat.eqb i j) (J i j) = Some d ->
    (forall u v, (forall k, (k < n)%nat -> u k = v k) -> F u i = F v i) ->
    exists V,
      (forall h, ncp_smooth_value jt (a i) (b i) (x i + (if Nat.eqb i j then h else 0))
                   (F (fun k => x k + (if Nat.eqb k j then h else 0)) i) = Some (V h)) /\
      derivable_pt_lim V 0 d.
Proof.
  intros jt n a b F J x i j d Hjt Hi Hj HF Hd H0.
  assert (Hd' : match ncp_coefs (a i) (b i) (x i) (F x i) with
                | Some (ff, xx) => Some (ff * J i j - (if Nat.eqb i j then xx else 0))
                | None => None end = Some d) by (destruct jt; try exact Hd; contradiction).
  clear Hd. destruct (ncp_coefs (a i) (b i) (x i) (F x i)) as [[ff xx]|] eqn:EC; [|discriminate].
  injection Hd' as <-.
  pose (X := fun h => x i + (if Nat.eqb i j then h else 0)).
  pose (G := fun h => F (fun k => x k + (if Nat.eqb k j then h else 0)) i).
  assert (HX : derivable_pt_lim X 0 (if Nat.eqb i j then 1 else 0)).
  { unfold X. destruct (Nat.eqb i j).
    - replace 1 with (0 + 1) at 1 by ring. apply (derivable_pt_lim_plus (fun _ => x i) (fun h => h));
        [apply derivable_pt_lim_const|apply derivable_pt_lim_id].
    - apply derivable_pt_lim_const. }
  assert (HX0 : X 0 = x i) by (unfold X; destruct (Nat.eqb i j); ring).
  assert (HG0 : G 0 = F x i) by (unfold G; apply H0; intros k _; destruct (Nat.eqb k j); ring).
  destruct (ncp_deriv (a i) (b i) X G 0 _ _ ff xx HX HF) as (V & HV & HD).
  { rewrite HX0, HG0. exact EC. }
  exists V. split.
  - intro h. specialize (HV h). destruct jt; try exact HV; contradiction.
  - replace (ff * J i j - (if Nat.eqb i j then xx else 0)) with (ff * J i j - xx * (if Nat.eqb i j then 1 else 0));
      [exact HD|destruct (Nat.eqb i j); ring].
Qed.

(** ** improved_time_iteration's smoothing *)

(** Applied first with the upper slack to the residual, then with the lower slack to its opposite,
    as in improved_time_iteration.py; see [Model/TimeIteration]. *)
Lemma iti_smooth_finite : forall r d, d <= 100000 -> iti_smooth r (Fin d) = Some (PhiFB r d).
Proof.
  intros r d Hd. unfold iti_smooth. cbn [ext_gtb]. destruct (Rlt_dec 100000 d); [lra|]. reflexivity.
Qed.

Lemma iti_coefs_deriv : forall (Rf Df : R -> R) t dR dD pa pb,
    derivable_pt_lim Rf t dR -> derivable_pt_lim Df t dD -> Df t < 100000 ->
    iti_coefs (Rf t) (Fin (Df t)) = Some (pa, pb) ->
    derivable_pt_lim (fun s => PhiFB (Rf s) (Df s)) t (pa * dR + pb * dD).
Proof.
  intros Rf Df t dR dD pa pb HR HD Hlt HC. unfold iti_coefs in HC. cbn [ext_gtb] in HC.
  destruct (Rlt_dec 100000 (Df t)); [lra|].
  destruct (Req_EM_T (sqrt (Rf t ^ 2 + Df t ^ 2)) 0) as [E|NE]; [discriminate|]. injection HC as <- <-.
  pose proof (PhiFB_deriv Rf Df t dR dD HR HD NE) as H. unfold PhiFB_ in H.
  destruct (Req_EM_T (sqrt (Rf t ^ 2 + Df t ^ 2)) 0); [contradiction|]. exact H.
Qed.
