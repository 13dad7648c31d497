From Coq Require Import Reals Arith Lia Lra Psatz String.
From Verif.Base Require Import Prelude Sums Norms Ext.
From Verif.Model Require Import Complementarity Lmmcp.
From Verif.Spec Require Import Complementarity Subdifferential.
From Verif.Proofs Require Import FischerBurmeister NewtonProofs LmmcpProofs LmmcpFinal LmmcpKinks LmmcpClarke.
Open Scope R_scope.

(** Gradients along the half-line x + t v, t > 0, and their limit. *)
Definition ray (x v : nat -> R) (t : R) : nat -> R := fun k => x k + t * v k.
Definition along (n : nat) (f : (nat -> R) -> R) (x v g : nat -> R) : Prop :=
  exists G d, 0 < d /\ (forall t, 0 < t < d -> gradient_at n f (ray x v t) (G t)) /\
    forall eps, 0 < eps -> exists d', 0 < d' /\ forall t, 0 < t < d' -> forall j, (j < n)%nat -> Rabs (G t j - g j) < eps.

Lemma ray_close : forall n x v d, 0 < d -> exists d', 0 < d' /\ forall t, 0 < t < d' -> close n d x (ray x v t).
Proof.
  intros n x v d Hd. set (B := rsum n (fun j => Rabs (v j))).
  assert (B0 : 0 <= B) by (apply rsum_nonneg; intros; apply Rabs_pos).
  exists (d / (B + 1)). split; [apply Rdiv_lt_0_compat; lra|]. intros t Ht i Hi. unfold ray.
  replace (x i + t * v i - x i) with (t * v i) by ring. rewrite Rabs_mult, (Rabs_right t) by lra.
  pose proof (abs_le_sum n v i Hi) as Hv. fold B in Hv. pose proof (Rabs_pos (v i)).
  assert (t * (B + 1) < d).
  { destruct Ht as [_ Ht]. apply (Rmult_lt_compat_r (B + 1)) in Ht; [|lra].
    replace (d / (B + 1) * (B + 1)) with d in Ht by (field; lra). exact Ht. }
  nra.
Qed.

Lemma along_limit : forall n f x v g, along n f x v g -> limit_of_gradients n f x g.
Proof.
  intros n f x v g (G & d & Hd & HG & HL) eps He.
  destruct (HL eps He) as (d1 & Hd1 & H1). destruct (ray_close n x v eps He) as (d2 & Hd2 & H2).
  set (t := / 2 * Rmin d (Rmin d1 d2)).
  assert (Ht : 0 < t) by (unfold t; apply Rmult_lt_0_compat; [lra|repeat apply Rmin_pos; assumption]).
  assert (Ht' : t < d /\ t < d1 /\ t < d2).
  { pose proof (Rmin_l d (Rmin d1 d2)). pose proof (Rmin_r d (Rmin d1 d2)). pose proof (Rmin_l d1 d2). pose proof (Rmin_r d1 d2).
    unfold t in *. lra. }
  exists (ray x v t), (G t). split; [apply H2; lra|]. split; [apply HG; lra|]. apply H1; lra.
Qed.

Lemma along_lin : forall n f1 f2 x v g1 g2 c1 c2, along n f1 x v g1 -> along n f2 x v g2 ->
  along n (fun y => c1 * f1 y + c2 * f2 y) x v (fun j => c1 * g1 j + c2 * g2 j).
Proof.
  intros n f1 f2 x v g1 g2 c1 c2 (G1 & d1 & P1 & H1 & L1) (G2 & d2 & P2 & H2 & L2).
  exists (fun t j => c1 * G1 t j + c2 * G2 t j), (Rmin d1 d2). split; [apply Rmin_pos; assumption|]. split.
  - intros t Ht j Hj. pose proof (Rmin_l d1 d2). pose proof (Rmin_r d1 d2).
    eapply derivable_ext'; [| |apply derivable_pt_lim_plus;
      [apply (derivable_pt_lim_scal _ c1 _ _ (H1 t ltac:(lra) j Hj))|apply (derivable_pt_lim_scal _ c2 _ _ (H2 t ltac:(lra) j Hj))]];
      [intros; reflexivity|reflexivity].
  - intros eps He. set (K := Rabs c1 + Rabs c2 + 1).
    assert (HK : 0 < K) by (unfold K; pose proof (Rabs_pos c1); pose proof (Rabs_pos c2); lra).
    assert (Hek : 0 < eps / K) by (apply Rdiv_lt_0_compat; lra).
    destruct (L1 _ Hek) as (e1 & Q1 & M1). destruct (L2 _ Hek) as (e2 & Q2 & M2).
    exists (Rmin e1 e2). split; [apply Rmin_pos; assumption|]. intros t Ht j Hj.
    pose proof (Rmin_l e1 e2). pose proof (Rmin_r e1 e2).
    specialize (M1 t ltac:(lra) j Hj). specialize (M2 t ltac:(lra) j Hj).
    replace (c1 * G1 t j + c2 * G2 t j - (c1 * g1 j + c2 * g2 j)) with (c1 * (G1 t j - g1 j) + c2 * (G2 t j - g2 j)) by ring.
    eapply Rle_lt_trans; [apply Rabs_triang|]. rewrite !Rabs_mult.
    assert (E : eps = (Rabs c1 + Rabs c2) * (eps / K) + eps / K) by (unfold K; field; fold K; lra).
    pose proof (Rabs_pos c1). pose proof (Rabs_pos c2).
    assert (Rabs c1 * Rabs (G1 t j - g1 j) <= Rabs c1 * (eps / K)) by (apply Rmult_le_compat_l; lra).
    assert (Rabs c2 * Rabs (G2 t j - g2 j) <= Rabs c2 * (eps / K)) by (apply Rmult_le_compat_l; lra).
    lra.
Qed.

Lemma along_ext : forall n f f' x v g g', (forall y, f y = f' y) -> (forall j, (j < n)%nat -> g j = g' j) ->
  along n f x v g -> along n f' x v g'.
Proof.
  intros n f f' x v g g' Hf Hg (G & d & P & H & L). exists G, d. split; [exact P|]. split.
  - intros t Ht j Hj. eapply derivable_ext'; [|reflexivity|apply (H t Ht j Hj)]. intros; apply Hf.
  - intros eps He. destruct (L eps He) as (d' & P' & M). exists d'. split; [exact P'|]. intros t Ht j Hj.
    rewrite <- Hg by exact Hj. apply M; assumption.
Qed.

(** A property of small positive t that holds for two reasons. *)
Definition soon (P : R -> Prop) : Prop := exists d, 0 < d /\ forall t, 0 < t < d -> P t.
Lemma soon_and : forall P Q, soon P -> soon Q -> soon (fun t => P t /\ Q t).
Proof.
  intros P Q (d1 & P1 & H1) (d2 & P2 & H2). exists (Rmin d1 d2). split; [apply Rmin_pos; assumption|]. intros t Ht.
  pose proof (Rmin_l d1 d2). pose proof (Rmin_r d1 d2). split; [apply H1|apply H2]; lra.
Qed.
Lemma soon_imp : forall (P Q : R -> Prop), (forall t, P t -> Q t) -> soon P -> soon Q.
Proof. intros P Q H (d & Hd & HP). exists d. split; [exact Hd|]. intros t Ht. apply H, HP, Ht. Qed.

Lemma line_sign : forall c w, c <> 0 \/ w <> 0 -> soon (fun t => c + t * w <> 0).
Proof.
  intros c w H. destruct (Req_dec c 0) as [->|Hc].
  - exists 1. split; [lra|]. intros t Ht. rewrite Rplus_0_l. destruct H; [lra|]. apply Rmult_integral_contrapositive; split; lra.
  - assert (Hp : 0 < Rabs c) by (apply Rabs_pos_lt; exact Hc). pose proof (Rabs_pos w).
    exists (Rabs c / (Rabs w + 1)). split; [apply Rdiv_lt_0_compat; lra|]. intros t Ht E.
    assert (Rabs c = t * Rabs w).
    { replace c with (- (t * w)) by lra. rewrite Rabs_Ropp, Rabs_mult, (Rabs_right t) by lra. reflexivity. }
    destruct Ht as [Ht0 Ht]. apply (Rmult_lt_compat_r (Rabs w + 1)) in Ht; [|lra].
    replace (Rabs c / (Rabs w + 1) * (Rabs w + 1)) with (Rabs c) in Ht by (field; lra). nra.
Qed.

Lemma line_pos : forall c w, 0 < c -> soon (fun t => 0 < c + t * w).
Proof.
  intros c w H. pose proof (Rabs_pos w). exists (c / (Rabs w + 1)). split; [apply Rdiv_lt_0_compat; lra|]. intros t Ht.
  destruct Ht as [Ht0 Ht]. apply (Rmult_lt_compat_r (Rabs w + 1)) in Ht; [|lra].
  replace (c / (Rabs w + 1) * (Rabs w + 1)) with c in Ht by (field; lra).
  unfold Rabs in *. destruct (Rcase_abs w); nra.
Qed.

Lemma sign_agree : forall s a b, s = 1 \/ s = -1 -> 0 < a * b ->
  (if Rle_dec 0 (s * a) then true else false) = (if Rle_dec 0 (s * b) then true else false).
Proof.
  intros s a b Hs Hab.
  assert (H : (0 < a /\ 0 < b) \/ (a < 0 /\ b < 0)).
  { destruct (Rtotal_order a 0) as [Ha|[->|Ha]]; [right|lra|left]; split; try assumption; nra. }
  destruct (Rle_dec 0 (s * a)), (Rle_dec 0 (s * b)); try reflexivity; exfalso; destruct Hs as [->| ->]; lra.
Qed.

Section Term.
  Variables (n : nat) (F : (nat -> R) -> nat -> R) (DF : (nat -> R) -> nat -> nat -> R) (x : nat -> R) (i : nat).
  Hypothesis Hi : (i < n)%nat.
  Hypothesis Hext : forall u v, (forall i, (i < n)%nat -> u i = v i) -> forall i, (i < n)%nat -> F u i = F v i.
  Hypothesis Hs : smooth_at n F DF x.

  Section Direction.
    Variable v : nat -> R.
    Let Dv := rsum n (fun k => DF x i k * v k).

    Lemma F_ray : forall eps, 0 < eps -> soon (fun t => Rabs ((F (ray x v t) i - F x i) / t - Dv) < eps).
    Proof.
      intros eps He. destruct Hs as ((d0 & Hd0 & H) & _).
      pose proof (H x ltac:(intros k Hk; rewrite Rminus_diag_eq by reflexivity; rewrite Rabs_R0; exact Hd0) v i Hi) as Dz.
      destruct (Dz eps He) as (d & Hd). exists d. split; [apply cond_pos|]. intros t Ht.
      specialize (Hd t ltac:(lra) ltac:(rewrite Rabs_right by lra; lra)). cbv beta in Hd.
      replace (F (fun k => x k + (0 + t) * v k) i) with (F (ray x v t) i) in Hd.
      2:{ apply Hext; [|exact Hi]. intros k Hk. unfold ray. ring. }
      replace (F (fun k => x k + 0 * v k) i) with (F x i) in Hd.
      2:{ apply Hext; [|exact Hi]. intros k Hk. ring. }
      exact Hd.
    Qed.

    Lemma F_ray_cont : forall eps, 0 < eps -> soon (fun t => Rabs (F (ray x v t) i - F x i) < eps).
    Proof.
      intros eps He. pose proof (Rabs_pos Dv).
      assert (Hb : soon (fun t => 0 < t /\ t * (Rabs Dv + 1) < eps)).
      { exists (eps / (Rabs Dv + 1)). split; [apply Rdiv_lt_0_compat; lra|]. intros t Ht. split; [lra|].
        destruct Ht as [_ Ht]. apply (Rmult_lt_compat_r (Rabs Dv + 1)) in Ht; [|lra].
        replace (eps / (Rabs Dv + 1) * (Rabs Dv + 1)) with eps in Ht by (field; lra). exact Ht. }
      eapply soon_imp; [|exact (soon_and _ _ Hb (F_ray 1 ltac:(lra)))]. cbv beta. intros t ((Ht & Ht2) & Hq).
      set (q := (F (ray x v t) i - F x i) / t) in *.
      replace (F (ray x v t) i - F x i) with (t * q) by (unfold q; field; lra).
      rewrite Rabs_mult, (Rabs_right t) by lra.
      assert (Rabs q < Rabs Dv + 1).
      { replace q with ((q - Dv) + Dv) by ring. eapply Rle_lt_trans; [apply Rabs_triang|]. lra. }
      nra.
    Qed.

    (** The sign of F along the ray. *)
    Lemma F_ray_sign : F x i <> 0 \/ Dv <> 0 ->
      soon (fun t => 0 < F (ray x v t) i * (if Req_EM_T (F x i) 0 then Dv else F x i)).
    Proof.
      intros H. destruct (Req_EM_T (F x i) 0) as [E|E].
      - assert (HD : Dv <> 0) by (destruct H; [contradiction|assumption]).
        assert (Hp : 0 < Rabs Dv) by (apply Rabs_pos_lt; exact HD).
        eapply soon_imp; [|exact (soon_and _ _ (ex_intro _ 1 (conj Rlt_0_1 (fun t Ht => proj1 Ht)) : soon (fun t => 0 < t)) (F_ray _ Hp))].
        cbv beta. intros t (Ht & Hq). rewrite E, Rminus_0_r in Hq.
        set (q := F (ray x v t) i / t) in *. replace (F (ray x v t) i) with (t * q) by (unfold q; field; lra).
        assert (0 < q * Dv); [|nra]. unfold Rabs in *. destruct (Rcase_abs Dv), (Rcase_abs (q - Dv)); nra.
      - assert (Hp : 0 < Rabs (F x i)) by (apply Rabs_pos_lt; exact E).
        eapply soon_imp; [|exact (F_ray_cont _ Hp)]. cbv beta. intros t Hq. set (q := F (ray x v t) i) in *.
        unfold Rabs in *. destruct (Rcase_abs (F x i)), (Rcase_abs (q - F x i)); nra.
    Qed.

    Variables (sigma b : R).
    Hypothesis Hsig : sigma = 1 \/ sigma = -1.
    Definition term (y : nat -> R) : R := Rmax 0 (sigma * (y i - b)) * Rmax 0 (sigma * F y i).
    Definition tgrad (y : nat -> R) (j : nat) : R :=
      F y i * (if Nat.eqb i j then 1 else 0) + (y i - b) * DF y i j.

    (** Sides taken along the ray. *)
    Let sx := if Req_EM_T (x i - b) 0 then v i else x i - b.
    Let sF := if Req_EM_T (F x i) 0 then Dv else F x i.

    Lemma term_gradient : forall y d, 0 < d -> close n d x y ->
      (forall y, close n d x y -> forall v i, (i < n)%nat ->
        derivable_pt_lim (fun h => F (fun k => y k + h * v k) i) 0 (rsum n (fun k => DF y i k * v k))) ->
      y i - b <> 0 -> F y i <> 0 ->
      gradient_at n term y (fun j => if Rle_dec 0 (sigma * (y i - b)) then if Rle_dec 0 (sigma * F y i) then tgrad y j else 0 else 0).
    Proof.
      intros y d Hd Hy H Nx NF j Hj.
      pose proof (H y Hy (fun k => if Nat.eqb k j then 1 else 0) i Hi) as Dj. cbv beta in Dj.
      rewrite (rsum_unit n (fun k => DF y i k) j Hj) in Dj.
      assert (Dj' : derivable_pt_lim (fun h => sigma * F (moved y j h) i) 0 (sigma * DF y i j)).
      { eapply derivable_ext'; [| |apply (derivable_pt_lim_scal _ sigma _ _ Dj)]; [|reflexivity].
        intros h. unfold mult_real_fct. f_equal. apply Hext; [|exact Hi]. intros k Hk. unfold moved. destruct (Nat.eqb k j); ring. }
      destruct (moved0 n F y i Hi Hext j) as [X0 F0].
      assert (HXl : derivable_pt_lim (fun h => sigma * (moved y j h i - b)) 0 (sigma * (if Nat.eqb i j then 1 else 0))).
      { eapply derivable_ext'; [| |apply (derivable_pt_lim_scal _ sigma _ _ (derivable_pt_lim_minus _ _ _ _ _ (partial_x y i j) (derivable_pt_lim_const b 0)))];
        [intros; reflexivity|ring]. }
      assert (S0 : sigma <> 0) by (destruct Hsig; lra).
      assert (S2 : sigma * sigma = 1) by (destruct Hsig as [->| ->]; ring).
      pose proof (deriv_maxprod _ _ 0 _ _ HXl Dj') as M. cbv beta in M. rewrite X0, F0 in M.
      specialize (M ltac:(apply Rmult_integral_contrapositive; split; assumption)
                    ltac:(apply Rmult_integral_contrapositive; split; assumption)).
      eapply derivable_ext'; [intros h; reflexivity| |exact M].
      destruct (Rle_dec 0 (sigma * (y i - b))); [|reflexivity]. destruct (Rle_dec 0 (sigma * F y i)); [|reflexivity].
      unfold tgrad.
      replace (sigma * (y i - b) * (sigma * DF y i j) + sigma * F y i * (sigma * (if Nat.eqb i j then 1 else 0)))
        with (sigma * sigma * ((y i - b) * DF y i j + F y i * (if Nat.eqb i j then 1 else 0))) by ring.
      rewrite S2. ring.
    Qed.

    Lemma term_along : sx <> 0 -> sF <> 0 ->
      along n term x v (fun j => if Rle_dec 0 (sigma * sx) then if Rle_dec 0 (sigma * sF) then tgrad x j else 0 else 0).
    Proof.
      intros Hsx HsF. destruct Hs as ((d0 & Hd0 & H) & Hcont).
      assert (S0 : sigma <> 0) by (destruct Hsig; lra).
      assert (Sx : soon (fun t => 0 < (ray x v t i - b) * sx)).
      { unfold sx in *. unfold ray. destruct (Req_EM_T (x i - b) 0) as [E|E].
        - exists 1. split; [lra|]. intros t Ht. replace (x i + t * v i - b) with ((x i - b) + t * v i) by ring. rewrite E.
          assert (0 < v i * v i) by (apply Rsqr_pos_lt in Hsx; exact Hsx). nra.
        - assert (0 < (x i - b) * (x i - b)) by (apply Rsqr_pos_lt in E; exact E).
          eapply soon_imp; [|exact (line_pos ((x i - b) * (x i - b)) (v i * (x i - b)) H0)]. cbv beta. intros t Ht. nra. }
      assert (SF : soon (fun t => 0 < F (ray x v t) i * sF)).
      { apply F_ray_sign. unfold sF in HsF. destruct (Req_EM_T (F x i) 0); [right|left]; assumption. }
      destruct (ray_close n x v d0 Hd0) as (dc & Hdc & Hc).
      assert (SG : soon (fun t => gradient_at n term (ray x v t)
          (fun j => if Rle_dec 0 (sigma * sx) then if Rle_dec 0 (sigma * sF) then tgrad (ray x v t) j else 0 else 0))).
      { eapply soon_imp; [|exact (soon_and _ _ (ex_intro _ dc (conj Hdc Hc) : soon (fun t => close n d0 x (ray x v t))) (soon_and _ _ Sx SF))].
        cbv beta. intros t (Hcl & Px & PF).
        pose proof (term_gradient (ray x v t) d0 Hd0 Hcl H ltac:(intro E; rewrite E in Px; lra) ltac:(intro E; rewrite E in PF; lra)) as G.
        assert (Q1 : (if Rle_dec 0 (sigma * (ray x v t i - b)) then true else false) = (if Rle_dec 0 (sigma * sx) then true else false)).
        { apply sign_agree; assumption. }
        assert (Q2 : (if Rle_dec 0 (sigma * F (ray x v t) i) then true else false) = (if Rle_dec 0 (sigma * sF) then true else false)).
        { apply sign_agree; assumption. }
        intros j Hj. specialize (G j Hj). cbv beta in G.
        destruct (Rle_dec 0 (sigma * (ray x v t i - b))), (Rle_dec 0 (sigma * sx)); try discriminate; [|exact G].
        destruct (Rle_dec 0 (sigma * F (ray x v t) i)), (Rle_dec 0 (sigma * sF)); try discriminate; exact G. }
      destruct SG as (d & Hd & HG).
      exists (fun t j => if Rle_dec 0 (sigma * sx) then if Rle_dec 0 (sigma * sF) then tgrad (ray x v t) j else 0 else 0), d.
      split; [exact Hd|]. split; [exact HG|]. intros eps He.
      assert (Hz : forall t : R, Rabs (0 - 0) < eps) by (intros; rewrite Rminus_0_r, Rabs_R0; exact He).
      destruct (Rle_dec 0 (sigma * sx)); [|exists 1; split; [lra|]; intros; apply Hz; exact 0].
      destruct (Rle_dec 0 (sigma * sF)); [|exists 1; split; [lra|]; intros; apply Hz; exact 0].
      set (B := rsum n (fun j => Rabs (DF x i j))).
      assert (HB : forall j, (j < n)%nat -> Rabs (DF x i j) <= B) by (intros j Hj; apply (abs_le_sum n (fun j => DF x i j)); exact Hj).
      assert (B0 : 0 <= B) by (unfold B; apply rsum_nonneg; intros; apply Rabs_pos).
      set (A := Rabs (x i - b)). assert (A0 : 0 <= A) by apply Rabs_pos.
      set (eta := Rmin 1 (eps / (A + B + 4))).
      assert (Heta : 0 < eta) by (apply Rmin_pos; [lra|apply Rdiv_lt_0_compat; lra]).
      assert (E1 : eta <= 1) by apply Rmin_l.
      assert (E2 : eta * (A + B + 4) <= eps).
      { pose proof (Rmin_r 1 (eps / (A + B + 4))) as Hm. fold eta in Hm.
        apply (Rmult_le_compat_r (A + B + 4)) in Hm; [|lra].
        replace (eps / (A + B + 4) * (A + B + 4)) with eps in Hm by (field; lra). exact Hm. }
      destruct (Hcont eta Heta) as (d2 & Hd2 & HD). destruct (ray_close n x v d2 Hd2) as (d3 & Hd3 & H3).
      destruct (ray_close n x v eta Heta) as (d4 & Hd4 & H4).
      assert (SS : soon (fun t => (close n d2 x (ray x v t) /\ close n eta x (ray x v t)) /\ Rabs (F (ray x v t) i - F x i) < eta)).
      { apply soon_and; [apply soon_and; [exists d3; split; assumption|exists d4; split; assumption]|apply F_ray_cont; exact Heta]. }
      destruct SS as (dd & Hdd & SS). exists dd. split; [exact Hdd|]. intros t Ht j Hj.
      destruct (SS t Ht) as ((C1 & C2) & C3). specialize (HD _ C1 i j Hi Hj). specialize (C2 i Hi). specialize (HB j Hj).
      unfold tgrad. set (y := ray x v t) in *. set (e := if Nat.eqb i j then 1 else 0).
      replace (F y i * e + (y i - b) * DF y i j - (F x i * e + (x i - b) * DF x i j))
        with ((F y i - F x i) * e + (x i - b) * (DF y i j - DF x i j) + (y i - x i) * (DF y i j - DF x i j) + (y i - x i) * DF x i j) by ring.
      assert (T1 : Rabs ((F y i - F x i) * e) <= eta).
      { rewrite Rabs_mult. unfold e. destruct (Nat.eqb i j); [rewrite Rabs_R1|rewrite Rabs_R0]; lra. }
      assert (T2 : Rabs ((x i - b) * (DF y i j - DF x i j)) <= A * eta).
      { rewrite Rabs_mult. apply Rmult_le_compat_l; [exact A0|lra]. }
      assert (T3 : Rabs ((y i - x i) * (DF y i j - DF x i j)) <= eta).
      { rewrite Rabs_mult. pose proof (Rabs_pos (y i - x i)). pose proof (Rabs_pos (DF y i j - DF x i j)). nra. }
      assert (T4 : Rabs ((y i - x i) * DF x i j) <= eta * B).
      { rewrite Rabs_mult. apply Rmult_le_compat; try apply Rabs_pos; lra. }
      eapply Rle_lt_trans; [apply Rabs_triang|]. eapply Rle_lt_trans; [apply Rplus_le_compat_r; apply Rabs_triang|].
      eapply Rle_lt_trans; [apply Rplus_le_compat_r; apply Rplus_le_compat_r; apply Rabs_triang|]. nra.
    Qed.
  End Direction.

  (** A direction along which F increases strictly and coordinate i moves. *)
  Definition rising : nat -> R := fun k => DF x i k + (if Nat.eqb k i then if Rle_dec 0 (DF x i i) then 1 else 0 else 0).

  Lemma rising_ok : (exists j, (j < n)%nat /\ DF x i j <> 0) ->
    rising i <> 0 /\ 0 < rsum n (fun k => DF x i k * rising k).
  Proof.
    intros (j & Hj & Hne). split.
    - unfold rising. rewrite Nat.eqb_refl. destruct (Rle_dec 0 (DF x i i)); lra.
    - assert (E : rsum n (fun k => DF x i k * rising k) =
        rsum n (fun k => DF x i k * DF x i k) + (if Rle_dec 0 (DF x i i) then DF x i i else 0)).
      { unfold rising.
        rewrite (rsum_ext n _ (fun k => DF x i k * DF x i k + (DF x i k * (if Rle_dec 0 (DF x i i) then 1 else 0)) * (if Nat.eqb k i then 1 else 0))).
        2:{ intros k Hk. destruct (Nat.eqb k i); destruct (Rle_dec 0 (DF x i i)); ring. }
        rewrite rsum_plus. f_equal.
        rewrite (rsum_unit n (fun k => DF x i k * (if Rle_dec 0 (DF x i i) then 1 else 0)) i Hi).
        destruct (Rle_dec 0 (DF x i i)); ring. }
      rewrite E.
      assert (P : 0 < rsum n (fun k => DF x i k * DF x i k)).
      { assert (Q : forall m, (m <= n)%nat -> 0 <= rsum m (fun k => DF x i k * DF x i k)).
        { intros m Hm. apply rsum_nonneg. intros. apply Rle_0_sqr. }
        clear E. assert (G : forall m, (m <= n)%nat -> (j < m)%nat -> 0 < rsum m (fun k => DF x i k * DF x i k)).
        { induction m as [|m IH]; intros Hm Hjm; [lia|]. cbn [rsum]. pose proof (Q m ltac:(lia)).
          pose proof (Rle_0_sqr (DF x i m)) as Hsq. unfold Rsqr in Hsq. destruct (Nat.eq_dec j m) as [->|].
          - apply Rsqr_pos_lt in Hne. unfold Rsqr in Hne. lra.
          - specialize (IH ltac:(lia) ltac:(lia)). lra. }
        apply G; [lia|exact Hj]. }
      destruct (Rle_dec 0 (DF x i i)); lra.
  Qed.

  (** Where F and its gradient vanish, each term has a zero gradient. *)
  Lemma term_flat : forall sigma b, F x i = 0 -> (forall j, (j < n)%nat -> DF x i j = 0) ->
    gradient_at n (term sigma b) x (fun _ => 0).
  Proof.
    intros sigma b HF HD j Hj eps He. unfold term.
    pose proof (partial_F n F DF x i Hi Hext Hs j Hj) as P. rewrite (HD j Hj) in P.
    destruct (moved0 n F x i Hi Hext j) as [X0 F0].
    set (K := Rabs (sigma * (x i - b)) + Rabs sigma).
    assert (HK : 0 <= K) by (unfold K; pose proof (Rabs_pos (sigma * (x i - b))); pose proof (Rabs_pos sigma); lra).
    set (L := K * Rabs sigma + 1).
    assert (HL : 0 < L) by (unfold L; pose proof (Rabs_pos sigma); nra).
    destruct (P (eps / L) ltac:(apply Rdiv_lt_0_compat; lra)) as (d & Hd).
    exists (mkposreal _ (Rmin_pos _ _ (cond_pos d) Rlt_0_1)). cbn. intros h Hh Hlt.
    pose proof (Rmin_l d 1). pose proof (Rmin_r d 1).
    specialize (Hd h Hh ltac:(lra)). rewrite Rplus_0_l in *. rewrite F0, HF, !Rminus_0_r in Hd.
    rewrite X0, F0, HF, Rmult_0_r, (Rmax_left 0 0) by lra. rewrite Rmult_0_r, !Rminus_0_r.
    assert (M : forall a, Rabs (Rmax 0 a) <= Rabs a).
    { intros a. unfold Rmax. destruct (Rle_dec 0 a); [lra|]. rewrite Rabs_R0. apply Rabs_pos. }
    assert (HX : Rabs (sigma * (moved x j h i - b)) <= K).
    { unfold moved, K. destruct (Nat.eqb i j).
      - replace (sigma * (x i + h - b)) with (sigma * (x i - b) + sigma * h) by ring.
        eapply Rle_trans; [apply Rabs_triang|]. apply Rplus_le_compat_l. rewrite Rabs_mult.
        pose proof (Rabs_pos sigma). pose proof (Rabs_pos h). nra.
      - rewrite Rplus_0_r. pose proof (Rabs_pos sigma). lra. }
    pose proof (M (sigma * (moved x j h i - b))) as M1. pose proof (M (sigma * F (moved x j h) i)) as M2.
    unfold Rdiv. rewrite !Rabs_mult. unfold Rdiv in Hd. rewrite Rabs_mult in Hd.
    set (a := Rabs (Rmax 0 (sigma * (moved x j h i - b)))) in *. set (c := Rabs (Rmax 0 (sigma * F (moved x j h) i))) in *.
    rewrite Rabs_mult in M2.
    assert (0 <= a) by apply Rabs_pos. assert (0 <= c) by apply Rabs_pos.
    pose proof (Rabs_pos sigma). pose proof (Rabs_pos (F (moved x j h) i)). pose proof (Rabs_pos (/ h)).
    apply Rle_lt_trans with ((K * Rabs sigma) * (Rabs (F (moved x j h) i) * Rabs (/ h))).
    - replace (a * c * Rabs (/ h)) with ((a * c) * Rabs (/ h)) by ring. rewrite <- Rmult_assoc. apply Rmult_le_compat_r; [assumption|].
      rewrite Rmult_assoc. apply Rmult_le_compat; lra.
    - assert (E : eps = L * (eps * / L)) by (field; lra). 
      apply Rle_lt_trans with ((K * Rabs sigma) * (eps * / L)).
      + apply Rmult_le_compat_l; [apply Rmult_le_pos; lra|lra].
      + rewrite E at 2. unfold L at 2. assert (0 < eps * / L) by (apply Rdiv_lt_0_compat; lra). lra.
  Qed.
End Term.
