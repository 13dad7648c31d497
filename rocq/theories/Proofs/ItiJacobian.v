(** Derivatives of the complementarity residual of improved time iteration. *)
From Coq Require Import Reals Arith Lia Lra.
From Verif.Base Require Import Prelude Ext.
From Verif.Spec Require Import Complementarity.
From Verif.Model Require Import Complementarity ImprovedTimeIteration.
From Verif.Proofs Require Import FischerBurmeister LmmcpFinal.
Open Scope R_scope.

Lemma deriv_continuous_lt : forall f t l b, derivable_pt_lim f t l -> f t < b ->
    exists d : posreal, forall h, Rabs (h - t) < d -> f h < b.
Proof.
  intros f t l b Hf Hb.
  assert (Hc : continuity_pt f t) by (apply derivable_continuous_pt; exists l; exact Hf).
  destruct (Hc (b - f t) ltac:(lra)) as (d & Hd & H).
  exists (mkposreal d Hd). intros h Hh. cbn in Hh.
  destruct (Req_EM_T t h) as [<-|Hne]; [exact Hb|].
  specialize (H h). cbn in H. unfold R_dist, D_x, no_cond in H.
  specialize (H (conj (conj I Hne) Hh)). apply Rabs_def2 in H. lra.
Qed.

(** One smoothing step along a path, [D] being the distance to a finite bound. *)
Lemma iti_smooth_deriv : forall nan Rf Df t dR dD a b,
    derivable_pt_lim Rf t dR -> derivable_pt_lim Df t dD -> Df t <> 100000 ->
    iti_coefs (Rf t) (Fin (Df t)) = Some (a, b) ->
    derivable_pt_lim (fun s => orn nan (iti_smooth (Rf s) (Fin (Df s)))) t (a * dR + b * dD).
Proof.
  intros nan Rf Df t dR dD a b HR HD Hne Hc.
  destruct (Rlt_dec (Df t) 100000) as [Hlt|Hge].
  - destruct (deriv_continuous_lt Df t dD 100000 HD Hlt) as (d & Hd).
    apply (derivable_pt_lim_loc (fun s => PhiFB (Rf s) (Df s)) _ t _ d (cond_pos d)).
    + intros h Hh. rewrite iti_smooth_finite; [reflexivity|]. left. apply Hd. exact Hh.
    + apply iti_coefs_deriv; assumption.
  - assert (Hgt : - Df t < - 100000) by lra.
    pose proof (derivable_pt_lim_opp _ _ _ HD) as HD'. unfold opp_fct in HD'.
    destruct (deriv_continuous_lt _ t _ (-100000) HD' Hgt) as (d & Hd). cbv beta in Hd.
    unfold iti_coefs in Hc. cbn [ext_gtb] in Hc. destruct (Rlt_dec 100000 (Df t)); [|lra].
    injection Hc as <- <-.
    apply (derivable_pt_lim_loc Rf _ t _ d (cond_pos d)).
    + intros h Hh. unfold iti_smooth. cbn [ext_gtb]. specialize (Hd h Hh).
      destruct (Rlt_dec 100000 (Df h)); [reflexivity|lra].
    + replace (1 * dR + 0 * dD) with dR by ring. exact HR.
Qed.

Lemma above_path : forall x c a, derivable_pt_lim (fun h => x + c * h - a) 0 c.
Proof.
  intros x c a eps Heps. exists (mkposreal 1 Rlt_0_1). intros h Hh _.
  replace ((x + c * (0 + h) - a - (x + c * 0 - a)) / h - c) with 0 by (field; exact Hh).
  rewrite Rabs_R0. exact Heps.
Qed.
Lemma below_path : forall x c b, derivable_pt_lim (fun h => b - (x + c * h)) 0 (- c).
Proof.
  intros x c b. pose proof (derivable_pt_lim_opp _ _ _ (above_path x c b)) as H. unfold opp_fct in H.
  apply (derivable_pt_lim_ext (fun h => - (x + c * h - b))); [intros; ring|exact H].
Qed.

(** The two factors are the partial derivatives of the complementarity residual. *)
Lemma iti_factors_deriv : forall nan lb ub x c (Rf : R -> R) dR a b,
    derivable_pt_lim Rf 0 dR ->
    above x lb <> Fin 100000 -> below ub x <> Fin 100000 ->
    iti_factors lb ub x (Rf 0) = Some (a, b) ->
    derivable_pt_lim (fun h => orn nan (iti_smoothed lb ub (x + c * h) (Rf h))) 0 (a * dR + b * c).
Proof.
  intros nan lb ub x c Rf dR a b HR Hl Hu Hf.
  unfold iti_factors in Hf.
  destruct (iti_smooth (Rf 0) (above x lb)) as [h0|] eqn:Eh; [|discriminate].
  destruct (iti_coefs (Rf 0) (above x lb)) as [[a1 b1]|] eqn:E1; [|discriminate].
  destruct (iti_coefs (- h0) (below ub x)) as [[a2 b2]|] eqn:E2; [|discriminate].
  injection Hf as <- <-.
  (* the inner path *)
  assert (Hin : exists H1 : R -> R, (forall h, iti_smooth (Rf h) (above (x + c * h) lb) = Some (H1 h)) /\
                  derivable_pt_lim H1 0 (a1 * dR + b1 * c)).
  { destruct lb as [|l|]; cbn [above] in *.
    - exists Rf. split; [reflexivity|]. cbn in E1. injection E1 as <- <-.
      replace (1 * dR + 0 * c) with dR by ring. exact HR.
    - exists (fun h => orn nan (iti_smooth (Rf h) (Fin (x + c * h - l)))). split.
      + intros h. unfold iti_smooth. cbn [ext_gtb]. destruct (Rlt_dec 100000 (x + c * h - l)); reflexivity.
      + apply (iti_smooth_deriv nan Rf (fun h => x + c * h - l)); [exact HR|apply above_path| |].
        * intros E. apply Hl. f_equal. rewrite <- E. ring.
        * replace (x + c * 0 - l) with (x - l) by ring. exact E1.
    - discriminate. }
  destruct Hin as (H1 & E & D1).
  assert (E0 : H1 0 = h0).
  { specialize (E 0). replace (x + c * 0) with x in E by ring. congruence. }
  pose proof (derivable_pt_lim_opp _ _ _ D1) as D1'. unfold opp_fct in D1'.
  assert (Hout : derivable_pt_lim (fun h => orn nan (iti_smooth (- H1 h) (below ub (x + c * h)))) 0
                   (a2 * - (a1 * dR + b1 * c) + b2 * - c)).
  { destruct ub as [|u|]; cbn [below] in *.
    - discriminate.
    - apply (iti_smooth_deriv nan (fun h => - H1 h) (fun h => u - (x + c * h))); [exact D1'|apply below_path| |].
      + intros E'. apply Hu. f_equal. rewrite <- E'. ring.
      + rewrite E0. replace (u - (x + c * 0)) with (u - x) by ring. exact E2.
    - cbn in E2. injection E2 as <- <-. cbn.
      replace (1 * - (a1 * dR + b1 * c) + 0 * - c) with (- (a1 * dR + b1 * c)) by ring. exact D1'. }
  pose proof (derivable_pt_lim_opp _ _ _ Hout) as D2. unfold opp_fct in D2.
  replace (a2 * a1 * dR + (a2 * b1 + b2) * c) with (- (a2 * - (a1 * dR + b1 * c) + b2 * - c)) by ring.
  apply (derivable_pt_lim_ext (fun h => - orn nan (iti_smooth (- H1 h) (below ub (x + c * h))))); [|exact D2].
  intros h. unfold iti_smoothed, iti_value. rewrite E.
  destruct ub as [|u|]; cbn [below]; unfold iti_smooth; cbn [ext_gtb].
  - discriminate.
  - destruct (Rlt_dec 100000 (u - (x + c * h))); reflexivity.
  - reflexivity.
Qed.

Lemma iti_factors_example :
  iti_factors (Fin 0) PInf 3 4 = Some (1 * (1 - 4 / 5), 1 * (1 - 3 / 5) + 0).
Proof.
  assert (Hs : sqrt (4 ^ 2 + 3 ^ 2) = 5).
  { replace (4 ^ 2 + 3 ^ 2) with (5 * 5) by ring. apply sqrt_square. lra. }
  unfold iti_factors. cbn [above below]. unfold iti_smooth, iti_coefs. cbn [ext_gtb].
  replace (3 - 0) with 3 by ring. destruct (Rlt_dec 100000 3); [lra|].
  rewrite Hs. destruct (Req_EM_T 5 0); [lra|]. reflexivity.
Qed.
