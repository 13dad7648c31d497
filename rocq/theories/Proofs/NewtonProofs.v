From Coq Require Import Reals List Arith Lia Lra.
From Verif.Base Require Import Prelude Sums Norms Ext.
From Verif.Model Require Import Complementarity Newton LinearSolve.
From Verif.Spec Require Import Complementarity LinearAlgebra Newton.
From Verif.Proofs Require Import FischerBurmeister GaussFinal.
Import ListNotations.
Open Scope R_scope.

Lemma backtrack_spec : forall {Jac} n (f : (nat -> R) -> (nat -> R) * Jac) e0 x dx r b,
    (forall c, (c < b)%nat -> e0 <= supnorm n (fst (f (trial x dx c)))) ->
    exists b', (b <= b' <= b + r)%nat /\ backtrack n f r b e0 x dx = trial x dx b' /\
      (forall c, (c < b')%nat -> e0 <= supnorm n (fst (f (trial x dx c)))) /\
      (supnorm n (fst (f (trial x dx b'))) < e0 \/ b' = (b + r)%nat).
Proof.
  intros Jac n f e0 x dx r. induction r as [|r IH]; intros b Hb; simpl.
  - exists b. split; [lia|]. split; [reflexivity|]. split; [assumption|right; lia].
  - destruct (Rlt_dec (supnorm n (fst (f (trial x dx b)))) e0) as [Hlt|Hge].
    + exists b. split; [lia|]. split; [reflexivity|]. split; [assumption|left; assumption].
    + destruct (IH (S b)) as (b' & H1 & H2 & H3 & H4).
      { intros c Hc. destruct (Nat.eq_dec c b) as [->|Hne]; [lra|]. apply Hb; lia. }
      exists b'. split; [lia|]. split; [assumption|]. split; [assumption|].
      destruct H4; [left; assumption|right; lia].
Qed.

Lemma newton_loop_run : forall {Jac} n (f : (nat -> R) -> (nat -> R) * Jac) lsolve tol fuel it x r it' c,
    (0 < n)%nat ->
    newton_loop n f lsolve tol fuel it x = Ok (r, it', c) ->
    (it <= it' <= it + fuel)%nat /\
    newton_run n f lsolve tol (it' - it) x r /\
    (c = true -> supnorm n (fst (f r)) < tol /\ (it' < it + fuel)%nat) /\
    (c = false -> it' = (it + fuel)%nat).
Proof.
  intros Jac n f lsolve tol fuel. induction fuel as [|fuel IH]; intros it x r it' c Hn H; cbn [newton_loop] in H.
  - injection H as <- <- <-. split; [lia|]. rewrite Nat.sub_diag. split; [constructor|].
    split; [discriminate|intros; lia].
  - destruct (Nat.eqb_spec n 0); [lia|]. destruct (f x) as [v dv] eqn:Ef.
    destruct (Rlt_dec (supnorm n v) tol) as [Hlt|Hge].
    + injection H as <- <- <-. split; [lia|]. rewrite Nat.sub_diag. split; [constructor|].
      rewrite Ef. split; [intros _; split; [exact Hlt|lia]|discriminate].
    + destruct (lsolve dv v) as [dx|e] eqn:El; cbn [bind] in H; [|discriminate].
      apply IH in H; [|assumption]. destruct H as (H1 & H2 & H3 & H4).
      split; [lia|]. split.
      * replace (it' - it)%nat with (S (it' - S it)) by lia.
        econstructor; [rewrite Ef; simpl; lra| |exact H2].
        destruct (backtrack_spec n f (supnorm n v) x dx (maxbacksteps - 1) 0) as (b & B1 & B2 & B3 & B4);
          [intros; lia|].
        exists dx, b. rewrite Ef. cbn [fst snd]. unfold maxbacksteps in *. simpl in B1.
        split; [exact El|]. split; [lia|]. split; [rewrite B2; reflexivity|].
        split; [exact B3|]. rewrite B2. destruct B4 as [B4|B4]; [left; exact B4|right; simpl in B4; lia].
      * split; [intros Hc; destruct (H3 Hc); split; [assumption|lia]|intros Hc; specialize (H4 Hc); lia].
Qed.

Lemma newton_final : forall {Jac} n (f : (nat -> R) -> (nat -> R) * Jac) lsolve tol maxit x r it conv,
    (0 < n)%nat ->
    newton n f lsolve tol maxit x = Ok (r, it, conv) ->
    (it <= maxit)%nat /\
    ((it < maxit)%nat <-> conv = true) /\
    ((it < maxit)%nat -> supnorm n (fst (f r)) < tol) /\
    newton_run n f lsolve tol it x r.
Proof.
  intros Jac n f lsolve tol maxit x r it conv Hn H. unfold newton in H.
  apply newton_loop_run in H; [|assumption]. destruct H as (H1 & H2 & H3 & H4).
  rewrite Nat.sub_0_r in H2. split; [lia|].
  assert (Hc : (it < maxit)%nat <-> conv = true).
  { split.
    - intros Hlt. destruct conv; [reflexivity|]. specialize (H4 eq_refl). lia.
    - intros Hc. destruct (H3 Hc). lia. }
  split; [exact Hc|]. split; [|exact H2].
  intros Hlt. apply Hc in Hlt. apply H3; assumption.
Qed.

(** Affine systems are solved in one step. *)
Lemma newton_affine_final : forall n (A : nat -> nat -> R) (b : nat -> R) lsolve tol maxit x,
    (0 < n)%nat -> 0 < tol -> (2 <= maxit)%nat ->
    (forall v dx, lsolve A v = Ok dx -> solves n A v dx) ->
    (forall v, exists dx, lsolve A v = Ok dx) ->
    exists r it,
      newton n (fun x => (fun i => mat_vec n A x i - b i, A)) lsolve tol maxit x = Ok (r, it, true) /\
      (it <= 1)%nat /\ (it = 1%nat -> solves n A b r) /\
      (it = 0%nat -> r = x /\ supnorm n (fun i => mat_vec n A x i - b i) < tol).
Proof.
  intros n A b lsolve tol maxit x Hn Ht Hm Hs He.
  unfold newton. destruct maxit as [|[|maxit]]; [lia|lia|]. cbn [newton_loop].
  destruct (Nat.eqb_spec n 0); [lia|].
  destruct (Rlt_dec (supnorm n (fun i => mat_vec n A x i - b i)) tol) as [Hlt|Hge].
  - exists x, 0%nat. split; [reflexivity|]. split; [lia|]. split; [lia|]. intros _. split; [reflexivity|assumption].
  - destruct (He (fun i => mat_vec n A x i - b i)) as [dx Edx]. rewrite Edx. cbn [bind].
    pose proof (Hs _ _ Edx) as Hsol.
    set (f := fun x : nat -> R => (fun i => mat_vec n A x i - b i, A)).
    assert (Hfull : forall i, (i < n)%nat -> mat_vec n A (trial x dx 0) i - b i = 0).
    { intros i Hi. specialize (Hsol i Hi). cbv beta in Hsol.
      assert (E : mat_vec n A (trial x dx 0) i = mat_vec n A x i - mat_vec n A dx i).
      { unfold mat_vec. rewrite <- rsum_minus. apply rsum_ext. intros j Hj. unfold trial. simpl. ring. }
      rewrite E, Hsol. ring. }
    assert (Hz : supnorm n (fst (f (trial x dx 0))) = 0) by (apply supnorm_zero_iff; exact Hfull).
    assert (Hb : backtrack n f (maxbacksteps - 1) 0 (supnorm n (fun i => mat_vec n A x i - b i)) x dx = trial x dx 0).
    { unfold maxbacksteps. simpl Nat.sub. cbn [backtrack]. rewrite Hz.
      destruct (Rlt_dec 0 _) as [|Hn0]; [reflexivity|lra]. }
    fold f. rewrite Hb.
    exists (trial x dx 0), 1%nat. split.
    + simpl newton_loop. destruct (Nat.eqb_spec n 0); [lia|].
      change (fun i => mat_vec n A (trial x dx 0) i - b i) with (fst (f (trial x dx 0))). rewrite Hz.
      destruct (Rlt_dec 0 tol); [|lra]. reflexivity.
    + split; [lia|]. split; [|lia]. intros _ i Hi. specialize (Hfull i Hi). lra.
Qed.


(** Fischer-Burmeister is comparable with the minimum. *)
Lemma PhiFB_le_min : forall u v, PhiFB u v <= u /\ PhiFB u v <= v.
Proof. intros u v. unfold PhiFB. pose proof (sqrt_ge_l u v). pose proof (sqrt_ge_r u v). lra. Qed.

Lemma PhiFB_ge_min : forall u v m, 0 <= m -> m <= u -> m <= v -> 7 / 12 * m <= PhiFB u v.
Proof.
  intros u v m Hm Hu Hv. unfold PhiFB.
  assert (sqrt (u ^ 2 + v ^ 2) <= u + v - 7 / 12 * m).
  { apply Rle_trans with (sqrt ((u + v - 7 / 12 * m) ^ 2)).
    - apply sqrt_le_1_alt. nra.
    - rewrite sqrt_pow2; lra. }
  lra.
Qed.

(** One smoothed entry below [tol] in absolute value. *)
Lemma ncp_entry_approx : forall a b x f v tol,
    a <> PInf -> b <> MInf -> ext_le (lower_cut BIG a) (upper_cut BIG b) ->
    ncp_value a b x (- f) = Some v -> Rabs v < tol ->
    mcp_approx (3 * tol) (lower_cut BIG a) (upper_cut BIG b) x f.
Proof.
  intros a b x f v tol Ha Hb Hle Hv Ht.
  assert (Ht0 : 0 < tol) by (pose proof (Rabs_pos v); lra).
  apply Rabs_def2 in Ht.
  (* p: minus the inner value *)
  assert (HP : exists p, ncp_pval a x (- f) = Some (- p) /\
     match lower_cut BIG a with
     | Fin r => p = PhiFB f (x - r) | _ => p = f end).
  { unfold ncp_pval, lower_cut. destruct (ext_leb a (- BIG)) eqn:Ea.
    - exists f. split; reflexivity.
    - destruct a as [|r|]; [discriminate| |contradiction]. exists (PhiFB f (x - r)). split; [|reflexivity].
      unfold PhiFB. replace ((- f) ^ 2 + (r - x) ^ 2) with (f ^ 2 + (x - r) ^ 2) by ring. f_equal. ring. }
  destruct HP as (p & Hp & Hpa). unfold ncp_value in Hv. rewrite Hp in Hv.
  (* outer *)
  assert (HQ : match upper_cut BIG b with
     | Fin s => v = PhiFB (- p) (s - x) | PInf => v = - p | MInf => False end).
  { unfold upper_cut. destruct (ext_geb b BIG) eqn:Eb.
    - congruence.
    - destruct b as [|s|]; [contradiction| |discriminate].
      assert (v = - p - sqrt ((- p) ^ 2 + (s - x) ^ 2) + (s - x)) as -> by congruence. unfold PhiFB. ring. }
  clear Hv Hp.
  assert (HA : match lower_cut BIG a with PInf => False | _ => True end).
  { unfold lower_cut. destruct (ext_leb a (- BIG)); [exact I|]. destruct a; try exact I. contradiction. }
  destruct (lower_cut BIG a) as [|r|]; [| |contradiction];
  destruct (upper_cut BIG b) as [|s|]; try contradiction; unfold mcp_approx; cbn in *.
  - (* -inf, s *) subst p. pose proof (PhiFB_le_min (- f) (s - x)) as Hm.
    split; [exact I|]. split; [lra|]. split.
    + intros Hx. destruct (Rlt_le_dec f (- (3 * tol))) as [Hf|]; [exfalso|lra].
      pose proof (PhiFB_ge_min (- f) (s - x) (3 * tol)). lra.
    + intros _. lra.
  - subst p. subst v. repeat split; try exact I; intros; lra.
  - pose proof (PhiFB_le_min (- p) (s - x)) as Hm. pose proof (PhiFB_le_min f (x - r)) as Hm2.
    rewrite <- Hpa in Hm2. rewrite <- HQ in Hm.
    assert (Hbx : x - tol <= s) by lra.
    assert (Hpu : p < tol) by lra.
    assert (Hor : s - x < 12 / 7 * tol \/ - p < 12 / 7 * tol).
    { destruct (Rlt_le_dec (s - x) (12 / 7 * tol)); [left; assumption|].
      destruct (Rlt_le_dec (- p) (12 / 7 * tol)); [right; assumption|exfalso].
      pose proof (PhiFB_ge_min (- p) (s - x) (12 / 7 * tol)). lra. }
    assert (Hor2 : f < 3 * tol \/ x - r < 3 * tol).
    { destruct (Rlt_le_dec f (3 * tol)); [left; assumption|].
      destruct (Rlt_le_dec (x - r) (3 * tol)); [right; assumption|exfalso].
      pose proof (PhiFB_ge_min f (x - r) (3 * tol)). lra. }
    repeat split; intros; lra.
  - pose proof (PhiFB_le_min f (x - r)) as Hm2. rewrite <- Hpa in Hm2. subst v.
    assert (Hor2 : f < 3 * tol \/ x - r < 3 * tol).
    { destruct (Rlt_le_dec f (3 * tol)); [left; assumption|].
      destruct (Rlt_le_dec (x - r) (3 * tol)); [right; assumption|exfalso].
      pose proof (PhiFB_ge_min f (x - r) (3 * tol)). lra. }
    repeat split; try exact I; intros; lra.
Qed.

Lemma ncp_value_some : forall a b x f, a <> PInf -> b <> MInf -> exists v, ncp_value a b x f = Some v.
Proof.
  intros a b x f Ha Hb. unfold ncp_value, ncp_pval.
  destruct (ext_leb a (- BIG)) eqn:Ea.
  - destruct (ext_geb b BIG) eqn:Eb; [eexists; reflexivity|].
    destruct b; try contradiction; [eexists; reflexivity|discriminate].
  - destruct a; [discriminate| |contradiction].
    destruct (ext_geb b BIG) eqn:Eb; [eexists; reflexivity|].
    destruct b; try contradiction; [eexists; reflexivity|discriminate].
Qed.

Lemma ncpsolve_final : forall nan n jt f lsolve a b tol maxit x r it conv,
    (0 < n)%nat -> jt <> JFull ->
    (forall i, (i < n)%nat -> a i <> PInf /\ b i <> MInf /\ ext_le (lower_cut BIG (a i)) (upper_cut BIG (b i))) ->
    ncpsolve nan n jt f lsolve a b tol maxit x = Ok (r, it, conv) ->
    (it <= maxit)%nat /\
    ((it < maxit)%nat -> forall i, (i < n)%nat ->
       mcp_approx (3 * tol) (lower_cut BIG (a i)) (upper_cut BIG (b i)) (r i) (fst (f r) i)).
Proof.
  intros nan n jt f lsolve a b tol maxit x r it conv Hn Hjt Hab H.
  unfold ncpsolve in H. apply newton_final in H; [|assumption].
  destruct H as (H0 & _ & H & _). split; [exact H0|]. intros Hlt i Hi. specialize (H Hlt).
  destruct (Hab i Hi) as (Ha & Hb & Hle).
  destruct (ncp_value_some (a i) (b i) (r i) (- fst (f r) i) Ha Hb) as [v E].
  apply (ncp_entry_approx _ _ _ _ v tol Ha Hb Hle E).
  eapply Rle_lt_trans; [|exact H].
  pose proof (supnorm_ge n (fst (ncp_fcmp nan jt a b f r)) i Hi) as Hg.
  unfold ncp_fcmp in Hg |- *. destruct (f r) as [val dval]. cbn [fst] in *.
  assert (E2 : ncp_smooth_value jt (a i) (b i) (r i) (- val i) = ncp_value (a i) (b i) (r i) (- val i))
    by (destruct jt; try reflexivity; contradiction).
  cbv beta in Hg. rewrite E2, E in Hg. exact Hg.
Qed.

(** The matrix handed to the linear solver is the Jacobian of the residuals handed with it. *)
Lemma ncp_fcmp_jacobian : forall nan jt n a b f x i j,
    jt <> JFull -> (i < n)%nat -> (j < n)%nat ->
    derivable_pt_lim (fun h => fst (f (fun k => x k + (if Nat.eqb k j then h else 0))) i) 0 (snd (f x) i j) ->
    (forall u v, (forall k, (k < n)%nat -> u k = v k) -> fst (f u) i = fst (f v) i) ->
    ncp_coefs (a i) (b i) (x i) (- fst (f x) i) <> None ->
    derivable_pt_lim (fun h => fst (ncp_fcmp nan jt a b f (fun k => x k + (if Nat.eqb k j then h else 0))) i) 0
      (snd (ncp_fcmp nan jt a b f x) i j).
Proof.
  intros nan jt n a b f x i j Hjt Hi Hj HD Hext HC.
  assert (HD' : derivable_pt_lim (fun h => - fst (f (fun k => x k + (if Nat.eqb k j then h else 0))) i) 0 (- snd (f x) i j)).
  { exact (derivable_pt_lim_opp _ _ _ HD). }
  assert (E : exists d, ncp_smooth_jac jt (a i) (b i) (x i) (- fst (f x) i) (Nat.eqb i j) (- snd (f x) i j) = Some d).
  { unfold ncp_smooth_jac. destruct (ncp_coefs (a i) (b i) (x i) (- fst (f x) i)) as [[ff xx]|] eqn:EC; [|contradiction].
    destruct jt; try contradiction; eexists; reflexivity. }
  destruct E as (d & E).
  destruct (ncp_jacobian jt n a b (fun u k => - fst (f u) k) (fun p q => - snd (f x) p q) x i j d Hjt Hi Hj HD' E) as (V & HV & HVD).
  { intros u v Huv. rewrite (Hext u v Huv). reflexivity. }
  assert (E1 : snd (ncp_fcmp nan jt a b f x) i j = d).
  { unfold ncp_fcmp. destruct (f x) as [val dval]. cbn [fst snd] in *. rewrite E. reflexivity. }
  assert (E2 : forall h, fst (ncp_fcmp nan jt a b f (fun k => x k + (if Nat.eqb k j then h else 0))) i = V h).
  { intro h. specialize (HV h). cbv beta in HV. unfold ncp_fcmp.
    destruct (f (fun k => x k + (if Nat.eqb k j then h else 0))) as [val dval].
    cbn [fst snd] in *. rewrite HV. reflexivity. }
  rewrite E1. intros eps He. destruct (HVD eps He) as (dl & H). exists dl. intros h Hh Hl. rewrite !E2. apply H; assumption.
Qed.

(** With a full Jacobian the bounds are ignored: for f(x) = x - 2 on [0,1] the point 2 is
    returned, from any start and with any exact linear solver. *)
Lemma ncpsolve_full_wrong : forall nan lsolve tol maxit x0,
    0 < tol -> (2 <= maxit)%nat ->
    (forall (J : nat -> nat -> R) v, J 0%nat 0%nat <> 0 ->
        exists dx, lsolve J v = Ok dx /\ solves 1 J v dx) ->
    exists r it,
      ncpsolve nan 1 JFull (fun x => (fun i => x i - 2, fun _ _ => 1)) lsolve
               (fun _ => Fin 0) (fun _ => Fin 1) tol maxit (fun _ => x0)
      = Ok (r, it, true) /\ (it < maxit)%nat /\ Rabs (r 0%nat - 2) < tol.
Proof.
  intros nan lsolve tol maxit x0 Ht Hm Hl. unfold ncpsolve, newton.
  set (f := ncp_fcmp nan JFull _ _ _).
  assert (Hf : forall x, supnorm 1 (fst (f x)) = Rabs (x 0%nat - 2)).
  { intros x. unfold supnorm. simpl. rewrite Rabs_Ropp. apply Rmax_right. apply Rabs_pos. }
  destruct maxit as [|[|maxit]]; [lia|lia|]. cbn [newton_loop Nat.eqb].
  destruct (f (fun _ => x0)) as [v dv] eqn:Ef.
  assert (Ev : supnorm 1 v = Rabs (x0 - 2)) by (rewrite <- (Hf (fun _ => x0)), Ef; reflexivity).
  rewrite Ev.
  destruct (Rlt_dec (Rabs (x0 - 2)) tol) as [Hlt|Hge].
  - eexists _, 0%nat. split; [reflexivity|]. split; [lia|]. exact Hlt.
  - assert (Ev0 : v 0%nat = - (x0 - 2)) by (change v with (fst (v, dv)); rewrite <- Ef; reflexivity).
    assert (Ed : dv 0%nat 0%nat = -1).
    { change dv with (snd (v, dv)); rewrite <- Ef; simpl. lra. }
    destruct (Hl dv v) as (dx & E & Hs); [rewrite Ed; lra|]. rewrite E. cbn [bind].
    specialize (Hs 0%nat ltac:(lia)). unfold mat_vec in Hs. simpl in Hs. rewrite Ed, Ev0 in Hs.
    assert (Edx : dx 0%nat = x0 - 2) by lra.
    assert (Ht0 : Rabs (trial (fun _ => x0) dx 0 0%nat - 2) = 0).
    { unfold trial. simpl. rewrite Edx. replace (x0 - (x0 - 2) * 1 - 2) with 0 by ring. apply Rabs_R0. }
    assert (Hb : backtrack 1 f (maxbacksteps - 1) 0 (Rabs (x0 - 2)) (fun _ => x0) dx = trial (fun _ => x0) dx 0).
    { unfold maxbacksteps. simpl Nat.sub. cbn [backtrack]. rewrite Hf, Ht0.
      destruct (Rlt_dec 0 _) as [|Hn0]; [reflexivity|lra]. }
    rewrite Hb. exists (trial (fun _ => x0) dx 0), 1%nat. rewrite Ht0. split; [|split; [lia|lra]].
    destruct (f (trial (fun _ => x0) dx 0)) as [v' dv'] eqn:Ef'.
    assert (Ev' : supnorm 1 v' = 0) by (rewrite <- Ht0, <- Hf, Ef'; reflexivity).
    rewrite Ev'. destruct (Rlt_dec 0 tol); [reflexivity|lra].
Qed.

(** Example data: the linear complementarity problem f(x) = x - 2 on [0,1]. *)
Lemma newton_example :
  exists r, newton 1 (fun x => (fun i : nat => 2 * x i - 6, fun _ _ : nat => 2)) (gauss_solve 1)
              (/ 1000) 5 (fun _ => 0) = Ok (r, 1%nat, true) /\ r 0%nat = 3.
Proof.
  unfold newton. cbn [newton_loop Nat.eqb].
  set (A := fun _ _ : nat => 2). set (b := fun i : nat => 2 * 0 - 6).
  assert (Hb : supnorm 1 b = 6).
  { unfold supnorm, b. simpl. replace (2 * 0 - 6) with (- 6) by ring.
    rewrite Rabs_left by lra. rewrite Rmax_right; lra. }
  rewrite Hb. destruct (Rlt_dec 6 (/ 1000)) as [H|_]; [lra|].
  pose proof (gauss_solve_correct 1 A b) as G. destruct (gauss_solve 1 A b) as [dx|e].
  2:{ exfalso. destruct G as (z & (i & Hi & Hne) & Hz). apply Hne. specialize (Hz 0%nat ltac:(lia)).
      unfold mat_vec, A in Hz. simpl in Hz. assert (i = 0%nat) as -> by lia. lra. }
  cbn [bind]. destruct G as (G & _ & _). specialize (G 0%nat ltac:(lia)). unfold mat_vec, A, b in G. simpl in G.
  assert (Edx : dx 0%nat = -3) by lra.
  set (f := fun x : nat -> R => (fun i : nat => 2 * x i - 6, A)).
  assert (Hz : supnorm 1 (fst (f (trial (fun _ => 0) dx 0))) = 0).
  { apply supnorm_zero_iff. intros i Hi. assert (i = 0%nat) as -> by lia. unfold f, trial. simpl. rewrite Edx. lra. }
  assert (Hbk : backtrack 1 f (maxbacksteps - 1) 0 6 (fun _ => 0) dx = trial (fun _ => 0) dx 0).
  { unfold maxbacksteps. simpl Nat.sub. cbn [backtrack]. rewrite Hz.
    destruct (Rlt_dec 0 6) as [|Hn0]; [reflexivity|lra]. }
  rewrite Hbk. exists (trial (fun _ => 0) dx 0). split.
  - change (fun i => 2 * trial (fun _ => 0) dx 0 i - 6) with (fst (f (trial (fun _ => 0) dx 0))). rewrite Hz.
    destruct (Rlt_dec 0 (/ 1000)); [reflexivity|lra].
  - unfold trial. rewrite Edx. simpl. lra.
Qed.
