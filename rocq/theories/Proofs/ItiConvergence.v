(** Convergence of improved time iteration near a regular equilibrium. *)
From Coq Require Import Reals List Arith Lia Lra Psatz.
From Verif.Base Require Import Prelude Arrays Sums Norms Ext.
From Verif.Spec Require Import LinearAlgebra Euler NewtonStep ImprovedTimeIteration ItiRegular.
From Verif.Model Require Import LinearSolve NumDiff Processes TimeIteration ImprovedTimeIteration.
From Verif.Proofs Require Import TimeIterationProofs ImprovedTimeIterationProofs GaussFinal.
Import ListNotations.
Open Scope R_scope.

(** Loops whose bodies never raise. *)
Lemma for_range_res_total : forall {A} n (body : nat -> A -> res A) a, (forall i x, (i < n)%nat -> exists y, body i x = Ok y) -> exists y, for_range_res n body a = Ok y.
Proof.
  intros A n body a. induction n as [|n IH]; intros H; [exists a; reflexivity|].
  destruct (IH ltac:(intros; apply H; lia)) as (y & E). cbn [for_range_res]. rewrite E. cbn [bind]. apply H. lia.
Qed.
Lemma pages1_total : forall {A} N (page : nat -> res A) d, (forall n, (n < N)%nat -> exists a, page n = Ok a) -> exists w, pages1 N page d = Ok w.
Proof. intros A N page d H. unfold pages1. apply for_range_res_total. intros n acc Hn. destruct (H n Hn) as (a & ->). cbn [bind]. eexists; reflexivity. Qed.
Lemma all_pages_total : forall {A} n_m N (page : nat -> nat -> res A) d,
  (forall i n, (i < n_m)%nat -> (n < N)%nat -> exists a, page i n = Ok a) -> exists w, all_pages n_m N page d = Ok w.
Proof.
  intros A n_m N page d H. unfold all_pages. apply for_range_res_total. intros i acc Hi. apply for_range_res_total. intros n acc' Hn.
  destruct (H i n Hi Hn) as (a & ->). cbn [bind]. eexists; reflexivity.
Qed.
Lemma invert_total : forall n k A B, (rhs_visited n k <= rhs_cols n k)%nat -> ~ singular n A -> exists a, invert n k A B = Ok a.
Proof. intros n k A B Hk Hs. pose proof (invert_correct n k A B Hk) as C. destruct (invert n k A B) as [a|e]; [exists a; reflexivity|contradiction]. Qed.
Lemma solve_pages_total : forall n_m N n_x D r, (forall i n, (i < n_m)%nat -> (n < N)%nat -> ~ singular n_x (D i n)) -> exists d, solve_pages n_m N n_x D r = Ok d.
Proof.
  intros n_m N n_x D r H. unfold solve_pages.
  destruct (all_pages_total n_m N (fun i n => invert n_x RVec (D i n) (fun k _ => r i n k)) (zero2, zero2)) as (w & ->); [|cbn [bind]; eexists; reflexivity].
  intros i n Hi Hn. apply invert_total; [apply le_n|auto].
Qed.
Lemma premultiply_total : forall n_m n_im N n_x D J, (forall i n, (i < n_m)%nat -> (n < N)%nat -> ~ singular n_x (D i n)) -> exists P, premultiply n_m n_im N n_x D J = Ok P.
Proof.
  intros n_m n_im N n_x D J H. unfold premultiply.
  destruct (all_pages_total n_m n_im (fun i j => pages1 N (fun n => invert n_x (RMat n_x) (D i n) (fun k l => - J i j n k l)) (zero2, zero2)) (fun _ => (zero2, zero2))) as (w & ->);
    [|cbn [bind]; eexists; reflexivity].
  intros i j Hi Hj. apply pages1_total. intros n Hn. apply invert_total; [apply le_n|auto].
Qed.
Lemma neumann_total : forall n_m N n_x L tol fuel nn d t, (1 <= fuel)%nat -> exists a, neumann n_m N n_x L tol fuel nn d t = Some a.
Proof.
  intros n_m N n_x L tol. induction fuel as [|fuel IH]; intros nn d t Hf; [lia|]. cbn [neumann]. destruct (Rlt_dec _ _); [eexists; reflexivity|].
  destruct fuel as [|fuel]; [eexists; reflexivity|]. apply IH. lia.
Qed.

Section Conv.
  Variable g : list R -> list R -> list R -> list R -> list R.
  Variable f : list R -> list R -> list R -> list R -> list R -> list R -> nat -> R.
  Variable exo : dexo.
  Variable s : list (list R).
  Variable n_x : nat.
  Variable interpolate : tensor -> nat -> nat -> list R -> list R.
  Variable lb ub : tensor_ext.
  Variable compl : bool.
  Variable nan : R.
  Notation n_m := (Nat.max (ex_n exo) 1).
  Notation N := (length s).
  Notation n_im := (dp_n (ex_dp exo) 0).
  Notation td := (tdist exo s n_x).
  Notation tn := (tnorm n_m N n_x).
  Notation ev := (control_of interpolate).
  Notation step := (iti_step g f exo s n_x interpolate lb ub compl nan).
  Notation err_of := (error_at g f exo s n_x interpolate lb ub compl nan).
  Notation regular := (regular_equilibrium g f exo s n_x interpolate lb ub compl nan).
  Notation pass := (pass g f exo s n_x interpolate lb ub compl nan).
  Hypothesis Hev : linear_rule n_m n_im N n_x ev.

  Lemma fe_linear : forall P S a b p q r,
    (forall i n k, (i < n_m)%nat -> (n < N)%nat -> (k < n_x)%nat -> r i n k = a * p i n k + b * q i n k) ->
    forall i n k, (i < n_m)%nat -> future_effect n_im n_x ev P S r i n k = a * future_effect n_im n_x ev P S p i n k + b * future_effect n_im n_x ev P S q i n k.
  Proof.
    intros P S a b p q r H i n k Hi. unfold future_effect. rewrite <- !rsum_scal, <- rsum_plus. apply rsum_ext. intros j Hj.
    rewrite <- !rsum_scal, <- rsum_plus. apply rsum_ext. intros l Hl. rewrite (Hev a b p q r H i j (S i j n) l Hi Hj Hl). ring.
  Qed.
  Lemma pe_linear : forall D a b p q r i n k,
    (forall k, (k < n_x)%nat -> r i n k = a * p i n k + b * q i n k) -> present_effect n_x D r i n k = a * present_effect n_x D p i n k + b * present_effect n_x D q i n k.
  Proof. intros D a b p q r i n k H. unfold present_effect. rewrite <- !rsum_scal, <- rsum_plus. apply rsum_ext. intros l Hl. rewrite H by assumption. ring. Qed.

  Variables (xs : tensor) (r lam delta L M : R).
  Hypothesis HR : regular xs r lam delta L M.
  Hypothesis Hlam : 0 <= lam < 1.
  Hypothesis Hdelta : 0 <= delta.
  Hypothesis HL : 0 <= L.

  (** The full step. *)
  Lemma full_step : forall tol smaxit x, td x xs <= r -> (1 <= smaxit)%nat ->
    exists tot nn, step tol smaxit x = Ok (tot, nn) /\ (nn < smaxit)%nat /\
      td (fun i n k => x i n k - tot i n k) xs <=
        ((delta + L * td x xs) * (1 - lam ^ (nn + 2)) + lam ^ (nn + 2)) * td x xs.
  Proof.
    intros tol smaxit x Hx Hm. destruct (HR x Hx) as (R1 & R2 & R3 & _). unfold iti_step.
    destruct (premultiply_total n_m n_im N n_x _ (iti_jres_c g f exo s n_x interpolate lb ub compl nan x) R1) as (P & EP). rewrite EP. cbn [bind].
    set (D := iti_dres_c g f exo s n_x interpolate lb ub compl nan x) in *. set (J := iti_jres_c g f exo s n_x interpolate lb ub compl nan x) in *.
    set (fut := fun i j n => nth n (next_states g exo s n_x x i j) []). set (rs := iti_res g f exo s n_x interpolate lb ub compl nan x) in *.
    change (fun (p : tensor) (i j : nat) (S : list R) (l : nat) => nth l (interpolate p i j S) 0) with ev.
    assert (EI : exists a, invert_jac ev n_m n_im N n_x rs D P fut tol smaxit = Ok a).
    { unfold invert_jac. destruct (solve_pages_total n_m N n_x D rs R1) as (d & ->). cbn [bind].
      destruct (neumann_total n_m N n_x (d_filt_dx ev n_m n_im n_x P fut) tol smaxit 0 d d Hm) as (a & ->). eexists; reflexivity. }
    destruct EI as ((tot & nn) & EI). exists tot, nn. split; [exact EI|].
    destruct (invert_jac_sum _ _ _ _ _ _ _ _ _ _ _ _ _ Hev EI) as (t & H0 & HS & Ht & _ & Hnn & _ & _). split; [exact Hnn|].
    set (F := future_effect n_im n_x ev P fut) in *. set (e := td x xs) in *. set (z := fun i n k => x i n k - xs i n k).
    assert (He : 0 <= e) by apply supnorm_nonneg.
    assert (Fc : forall p, tn (F p) <= lam * tn p).
    { intros p. apply (R2 p (F p)). intros i n k Hi Hn Hk. unfold today, tomorrow. fold D J fut. unfold F.
      rewrite (present_future ev n_m n_im N n_x D J P fut p EP i n k Hi Hn Hk). ring. }
    set (w := fun i n k => t 0%nat i n k - (z i n k - F z i n k)).
    assert (W : tn w <= (1 - lam) * (delta + L * e) * e).
    { apply R3. intros i n k Hi Hn Hk. unfold today, tomorrow. fold D J fut rs z.
      rewrite (pe_linear D 1 (-1) (t 0%nat) (fun i n k => z i n k - F z i n k) w i n k) by (intros; unfold w; ring).
      rewrite (pe_linear D 1 (-1) z (F z) (fun i n k => z i n k - F z i n k) i n k) by (intros; ring).
      rewrite (H0 i n k Hi Hn Hk). unfold F. rewrite (present_future ev n_m n_im N n_x D J P fut z EP i n k Hi Hn Hk). ring. }
    assert (Y : forall m, tn (fun i n k => z i n k - rsum m (fun c => t c i n k)) <= ((delta + L * e) * (1 - lam ^ m) + lam ^ m) * e).
    { induction m as [|m IH].
      - cbn [rsum pow]. replace ((delta + L * e) * (1 - 1) + 1) with 1 by ring. rewrite Rmult_1_l. apply tnorm_le; [exact He|]. intros i n k Hi Hn Hk.
        rewrite Rminus_0_r. apply (tnorm_ge n_m N n_x z i n k Hi Hn Hk).
      - set (y := fun i n k => z i n k - rsum m (fun c => t c i n k)) in *.
        assert (Hl : 0 <= lam ^ m) by (apply pow_le; lra).
        assert (SUM : forall q i n k, (i < n_m)%nat -> F (fun i n k => rsum q (fun c => t c i n k)) i n k = rsum q (fun c => t (S c) i n k)).
        { induction q as [|q IHq]; intros i n k Hi.
          - unfold F. rewrite (fe_linear P fut 0 0 z z (fun _ _ _ => 0)); [cbn; ring|intros; ring|exact Hi].
          - unfold F in *. rewrite (fe_linear P fut 1 1 (fun i n k => rsum q (fun c => t c i n k)) (t q)); [|intros; cbn [rsum]; ring|exact Hi].
            rewrite IHq by exact Hi. cbn [rsum]. rewrite (HS q i n k Hi). ring. }
        assert (RW : forall i n k, (i < n_m)%nat -> (n < N)%nat -> (k < n_x)%nat -> z i n k - rsum (S m) (fun c => t c i n k) = F y i n k - w i n k).
        { intros i n k Hi Hn Hk. rewrite (rsum_head m (fun c => t c i n k)). rewrite <- (SUM m i n k Hi). unfold w, F, y.
          rewrite (fe_linear P fut 1 (-1) z (fun i n k => rsum m (fun c => t c i n k)) (fun i n k => z i n k - rsum m (fun c => t c i n k))); [ring|intros; ring|exact Hi]. }
        assert (Nw : 0 <= tn w) by apply supnorm_nonneg. assert (Ny : 0 <= tn y) by apply supnorm_nonneg.
        apply Rle_trans with (lam * tn y + tn w).
        + apply tnorm_le; [nra|]. intros i n k Hi Hn Hk. rewrite RW by assumption. unfold Rminus. eapply Rle_trans; [apply Rabs_triang|]. rewrite Rabs_Ropp.
          apply Rplus_le_compat; [|apply tnorm_ge; assumption]. eapply Rle_trans; [apply (tnorm_ge n_m N n_x (F y) i n k Hi Hn Hk)|]. apply Fc.
        + cbn [pow]. assert (lam * tn y <= lam * (((delta + L * e) * (1 - lam ^ m) + lam ^ m) * e)) by (apply Rmult_le_compat_l; [lra|exact IH]). nra. }
    specialize (Y (nn + 2)%nat). unfold tdist. eapply Rle_trans; [|exact Y]. apply tnorm_le; [apply supnorm_nonneg|]. intros i n k Hi Hn Hk.
    replace (x i n k - tot i n k - xs i n k) with (z i n k - rsum (nn + 2) (fun c => t c i n k)) by (unfold z; rewrite Ht; ring).
    apply (tnorm_ge n_m N n_x (fun i n k => z i n k - rsum (nn + 2) (fun c => t c i n k)) i n k Hi Hn Hk).
  Qed.

  Notation theta := (delta + L * r).
  Notation kappa := (theta + (1 - theta) * lam ^ 2).
  Hypothesis Htheta : theta < 1.
  Hypothesis Hr : 0 <= r.

  Lemma kappa_bounds : 0 <= kappa < 1.
  Proof. assert (0 <= lam ^ 2 < 1) by (split; nra). assert (0 <= theta) by nra. split; nra. Qed.
  Lemma full_step_kappa : forall tol smaxit x, td x xs <= r -> (1 <= smaxit)%nat ->
    exists tot nn, step tol smaxit x = Ok (tot, nn) /\ td (fun i n k => x i n k - tot i n k) xs <= kappa * td x xs.
  Proof.
    intros tol smaxit x Hx Hm. destruct (full_step tol smaxit x Hx Hm) as (tot & nn & E & _ & B). exists tot, nn. split; [exact E|].
    eapply Rle_trans; [exact B|]. assert (He : 0 <= td x xs) by apply supnorm_nonneg. apply Rmult_le_compat_r; [exact He|].
    assert (lam ^ (nn + 2) <= lam ^ 2).
    { rewrite pow_add. rewrite <- (Rmult_1_l (lam ^ 2)) at 2. apply Rmult_le_compat_r; [apply pow_le; lra|]. rewrite <- (pow1 nn). apply pow_incr. lra. }
    assert (0 <= lam ^ (nn + 2)) by (apply pow_le; lra). assert (lam ^ 2 <= 1) by nra. assert (delta + L * td x xs <= theta) by nra. assert (0 <= delta + L * td x xs) by nra. nra.
  Qed.

  Lemma cut_step : forall x tot h, 0 <= h <= 1 -> td (fun i n k => x i n k - tot i n k) xs <= kappa * td x xs ->
    td (fun i n k => x i n k - tot i n k * h) xs <= (1 - h * (1 - kappa)) * td x xs.
  Proof.
    intros x tot h Hh B. assert (He : 0 <= td x xs) by apply supnorm_nonneg. pose proof kappa_bounds as KB.
    set (y := fun i n k => x i n k - tot i n k) in *.
    apply Rle_trans with ((1 - h) * td x xs + h * td y xs); [|nra].
    assert (0 <= td y xs) by apply supnorm_nonneg. unfold tdist at 1. apply tnorm_le; [nra|]. intros i n k Hi Hn Hk.
    replace (x i n k - tot i n k * h - xs i n k) with ((1 - h) * (x i n k - xs i n k) + h * (y i n k - xs i n k)) by (unfold y; ring).
    eapply Rle_trans; [apply Rabs_triang|]. rewrite !Rabs_mult, (Rabs_pos_eq (1 - h)), (Rabs_pos_eq h) by lra. apply Rplus_le_compat; apply Rmult_le_compat_l; try lra.
    - apply (tnorm_ge n_m N n_x (fun i n k => x i n k - xs i n k) i n k Hi Hn Hk).
    - apply (tnorm_ge n_m N n_x (fun i n k => y i n k - xs i n k) i n k Hi Hn Hk).
  Qed.

  Lemma backsteps_total : forall fuel b e x tot, (1 <= fuel)%nat -> exists y, backsteps g f exo s n_x interpolate lb ub compl nan fuel b e x tot = Some y.
  Proof.
    induction fuel as [|fuel IH]; intros b e x tot Hf; [lia|]. cbn [backsteps]. destruct (Rlt_dec _ _); [eexists; reflexivity|].
    destruct fuel as [|fuel]; [eexists; reflexivity|]. apply IH. lia.
  Qed.

  Section Loop.
    Variables (tol Q : R) (maxb smaxit : nat).
    Hypothesis HQ : 0 <= Q <= 1.
    Hypothesis Hb : (1 <= maxb)%nat.
    Hypothesis Hsm : (1 <= smaxit)%nat.
    Hypothesis Hdec : forall x y tot nn b, td x xs <= r -> tol <= err_of x -> step tol smaxit x = Ok (tot, nn) ->
      (b < maxb)%nat -> y = (fun i n k => x i n k - tot i n k * (/ 2) ^ b) ->
      (forall c, (c < b)%nat -> err_of x <= err_of (fun i n k => x i n k - tot i n k * (/ 2) ^ c)) -> td y xs <= Q * td x xs.

    Lemma loop_converges : forall fuel it x, td x xs <= r -> (1 <= fuel)%nat ->
      exists res, iti_loop g f exo s n_x interpolate lb ub compl nan tol maxb smaxit fuel it x = Ok res /\
        (it <= iti_N res < it + fuel)%nat /\ td (iti_x res) xs <= Q ^ (iti_N res - it) * td x xs /\
        (forall k, (k < fuel)%nat -> M * (Q ^ k * td x xs) < tol -> 0 <= M -> iti_converged res = true /\ (iti_N res <= it + k)%nat).
    Proof.
      induction fuel as [|fuel IH]; intros it x Hx Hf; [lia|].
      assert (He : 0 <= td x xs) by apply supnorm_nonneg.
      destruct (full_step_kappa tol smaxit x Hx Hsm) as (tot & nn & Es & _).
      destruct (backsteps_total maxb 0 (err_of x) x tot Hb) as (y & Eb).
      destruct (backsteps_spec _ _ _ _ _ _ _ _ _ _ _ _ _ _ _ _ Eb) as (b & Hbb & Ey & _ & Hc).
      cbn [iti_loop]. fold (err_of x). rewrite Es. cbn [bind fst]. rewrite Eb.
      destruct (Rlt_dec (err_of x) tol) as [Hlt|Hge].
      - eexists. split; [reflexivity|]. cbn [iti_N iti_x iti_converged]. split; [lia|]. rewrite Nat.sub_diag. cbn [pow]. split; [lra|]. intros; split; [reflexivity|lia].
      - assert (Dy : td y xs <= Q * td x xs).
        { apply (Hdec x y tot nn b Hx ltac:(lra) Es ltac:(lia) Ey). intros c Hcb. apply Hc. lia. }
        destruct fuel as [|fuel].
        + eexists. split; [reflexivity|]. cbn [iti_N iti_x iti_converged]. split; [lia|]. rewrite Nat.sub_diag. cbn [pow]. split; [nra|].
          intros k Hk Hm HM. replace k with 0%nat in Hm by lia. cbn [pow] in Hm. destruct (HR x Hx) as (_ & _ & _ & R4). lra.
        + change (exists res, iti_loop g f exo s n_x interpolate lb ub compl nan tol maxb smaxit (S fuel) (S it) y = Ok res /\
            (it <= iti_N res < it + S (S fuel))%nat /\ td (iti_x res) xs <= Q ^ (iti_N res - it) * td x xs /\
            (forall k, (k < S (S fuel))%nat -> M * (Q ^ k * td x xs) < tol -> 0 <= M -> iti_converged res = true /\ (iti_N res <= it + k)%nat)).
          destruct (IH (S it) y ltac:(nra) ltac:(lia)) as (res & E & B1 & B2 & B3). exists res. split; [exact E|]. split; [lia|]. split.
          * replace (iti_N res - it)%nat with (S (iti_N res - S it)) by lia. cbn [pow]. eapply Rle_trans; [exact B2|].
            assert (0 <= Q ^ (iti_N res - S it)) by (apply pow_le; lra). nra.
          * intros k Hk Hm HM. destruct (HR x Hx) as (_ & _ & _ & R4). destruct k as [|k]; [cbn [pow] in Hm; lra|].
            destruct (B3 k ltac:(lia)) as (C1 & C2); [|exact HM|split; [exact C1|lia]].
            assert (0 <= Q ^ k) by (apply pow_le; lra). cbn [pow] in Hm. eapply Rle_lt_trans; [|exact Hm]. apply Rmult_le_compat_l; [exact HM|]. nra.
    Qed.
  End Loop.

  Lemma iti_linear_convergence : forall tol maxb smaxit maxit x0,
    (1 <= ex_n exo)%nat -> (1 <= N)%nat -> (1 <= n_x)%nat -> (1 <= maxb)%nat -> (1 <= smaxit)%nat -> (1 <= maxit)%nat -> 0 <= M -> td x0 xs <= r ->
    let q := 1 - (/ 2) ^ (maxb - 1) * (1 - kappa) in
    exists res, improved_time_iteration g f exo s n_x interpolate lb ub compl nan tol maxb smaxit maxit x0 = Ok res /\
      (iti_N res < maxit)%nat /\ td (iti_x res) xs <= q ^ iti_N res * td x0 xs /\
      (forall k, (k < maxit)%nat -> M * (q ^ k * td x0 xs) < tol -> iti_converged res = true /\ (iti_N res <= k)%nat).
  Proof.
    intros tol maxb smaxit maxit x0 H1 H2 H3 Hb Hs Hm HM Hx q. pose proof kappa_bounds as KB.
    assert (Hh : forall b, 0 < (/ 2) ^ b <= 1) by (intros b; split; [apply pow_lt; lra|rewrite <- (pow1 b); apply pow_incr; lra]).
    assert (HQ : 0 <= q <= 1) by (unfold q; specialize (Hh (maxb - 1)%nat); split; nra).
    destruct (loop_converges tol q maxb smaxit HQ Hb Hs) with (fuel := maxit) (it := 0%nat) (x := x0) as (res & E & B1 & B2 & B3); [|exact Hx|exact Hm|].
    - intros x y tot nn b Hxx _ Es Hbb Ey _. destruct (full_step_kappa tol smaxit x Hxx Hs) as (tot' & nn' & E' & B). rewrite Es in E'. injection E' as <- <-. subst y.
      pose proof (Hh b). eapply Rle_trans; [apply cut_step; [lra|exact B]|]. apply Rmult_le_compat_r; [apply supnorm_nonneg|]. unfold q.
      assert ((/ 2) ^ (maxb - 1) <= (/ 2) ^ b).
      { replace (maxb - 1)%nat with (b + (maxb - 1 - b))%nat by lia. rewrite pow_add. pose proof (Hh (maxb - 1 - b)%nat). nra. }
      nra.
    - exists res. unfold improved_time_iteration. rewrite (proj2 (Nat.eqb_neq _ _)), (proj2 (Nat.eqb_neq _ _)), (proj2 (Nat.eqb_neq _ _)) by (try nia; lia).
      rewrite Nat.sub_0_r in B2. cbn [plus] in B1, B3. split; [exact E|]. split; [lia|]. split; [exact B2|]. intros k Hk Hq. apply B3; assumption.
  Qed.

  (** When residuals also bound the distance from below, the full steps are taken. *)
  Lemma iti_full_steps : forall m tol maxb smaxit maxit x0,
    (1 <= ex_n exo)%nat -> (1 <= N)%nat -> (1 <= n_x)%nat -> (1 <= maxb)%nat -> (1 <= smaxit)%nat -> (1 <= maxit)%nat -> 0 <= M -> 0 < tol -> td x0 xs <= r ->
    (forall x, td x xs <= r -> m * td x xs <= err_of x) -> M * kappa < m ->
    exists res, improved_time_iteration g f exo s n_x interpolate lb ub compl nan tol maxb smaxit maxit x0 = Ok res /\
      (iti_N res < maxit)%nat /\ td (iti_x res) xs <= kappa ^ iti_N res * td x0 xs /\
      (forall k, (k < maxit)%nat -> M * (kappa ^ k * td x0 xs) < tol -> iti_converged res = true /\ (iti_N res <= k)%nat).
  Proof.
    intros m tol maxb smaxit maxit x0 H1 H2 H3 Hb Hs Hm HM Ht Hx Hlow Hk. pose proof kappa_bounds as KB.
    destruct (loop_converges tol kappa maxb smaxit ltac:(lra) Hb Hs) with (fuel := maxit) (it := 0%nat) (x := x0) as (res & E & B1 & B2 & B3); [|exact Hx|exact Hm|].
    - intros x y tot nn b Hxx Herr Es Hbb Ey Hc. destruct (full_step_kappa tol smaxit x Hxx Hs) as (tot' & nn' & E' & B). rewrite Es in E'. injection E' as <- <-.
      assert (He : 0 <= td x xs) by apply supnorm_nonneg. destruct (HR x Hxx) as (_ & _ & _ & R4).
      destruct b as [|b].
      + subst y. unfold tdist at 1. unfold tdist at 1 in B. eapply Rle_trans; [|exact B]. apply tnorm_le; [apply supnorm_nonneg|]. intros i n k Hi Hn Hkx. cbn [pow]. rewrite Rmult_1_r.
        apply (tnorm_ge n_m N n_x (fun i n k => x i n k - tot i n k - xs i n k) i n k Hi Hn Hkx).
      + exfalso. specialize (Hc 0%nat ltac:(lia)). set (y0 := fun i n k => x i n k - tot i n k * (/ 2) ^ 0) in *.
        assert (D0 : td y0 xs <= kappa * td x xs).
        { unfold tdist at 1. unfold tdist at 1 in B. eapply Rle_trans; [|exact B]. apply tnorm_le; [apply supnorm_nonneg|]. intros i n k Hi Hn Hkx. unfold y0. cbn [pow]. rewrite Rmult_1_r.
          apply (tnorm_ge n_m N n_x (fun i n k => x i n k - tot i n k - xs i n k) i n k Hi Hn Hkx). }
        destruct (HR y0 ltac:(nra)) as (_ & _ & _ & R4'). specialize (Hlow x Hxx).
        assert (0 < td x xs). { destruct (Rle_lt_or_eq_dec 0 _ He) as [|Z]; [assumption|]. exfalso. rewrite <- Z in R4. lra. }
        assert (M * td y0 xs <= M * (kappa * td x xs)) by (apply Rmult_le_compat_l; assumption). nra.
    - exists res. unfold improved_time_iteration. rewrite (proj2 (Nat.eqb_neq _ _)), (proj2 (Nat.eqb_neq _ _)), (proj2 (Nat.eqb_neq _ _)) by (try nia; lia).
      rewrite Nat.sub_0_r in B2. cbn [plus] in B1, B3. split; [exact E|]. split; [lia|]. split; [exact B2|]. intros k Hkk Hq. apply B3; assumption.
  Qed.
End Conv.

(** ** An example: one node, the equation 2 x - X + x^2 = 0 with X tomorrow's control. *)
Definition ahead (m s x M S X : list R) (k : nat) : R := 2 * hd 0 x - hd 0 X + hd 0 x ^ 2.
Lemma ahead_regular : forall lb ub nan,
  linear_rule 1 1 1 1 (control_of const_ip) /\
  regular_equilibrium (fun _ s _ _ => s) ahead one_exo [[0]] 1 const_ip lb ub false nan (fun _ _ _ => 0) (1 / 10) (5 / 9) (1 / 10 ^ 7) (5 / 4) (11 / 10) /\
  forall x, tdist one_exo [[0]] 1 x (fun _ _ _ => 0) <= 1 / 10 ->
    9 / 10 * tdist one_exo [[0]] 1 x (fun _ _ _ => 0) <= error_at (fun _ s _ _ => s) ahead one_exo [[0]] 1 const_ip lb ub false nan x.
Proof.
  intros lb ub nan.
  assert (TD : forall x, tdist one_exo [[0]] 1 x (fun _ _ _ => 0) = Rabs (x 0%nat 0%nat 0%nat)).
  { intros x. unfold tdist. change (Nat.max (ex_n one_exo) 1) with 1%nat. change (length [[0]]) with 1%nat. rewrite tnorm_one. f_equal. ring. }
  assert (RS : forall x : tensor, iti_res (fun _ s _ _ => s) ahead one_exo [[0]] 1 const_ip lb ub false nan x 0%nat 0%nat 0%nat = x 0%nat 0%nat 0%nat + x 0%nat 0%nat 0%nat ^ 2).
  { intros x. unfold iti_res, euler_total, ahead, const_ip. cbn. lra. }
  assert (DR : forall x : tensor, iti_dres_c (fun _ s _ _ => s) ahead one_exo [[0]] 1 const_ip lb ub false nan x 0%nat 0%nat 0%nat 0%nat = 2 + 2 * x 0%nat 0%nat 0%nat + serial_eps).
  { intros x. unfold iti_dres_c, iti_row_factors, iti_dres, euler_total, ahead, const_ip. cbn. unfold serial_eps. field. }
  assert (JR : forall x : tensor, iti_jres_c (fun _ s _ _ => s) ahead one_exo [[0]] 1 const_ip lb ub false nan x 0%nat 0%nat 0%nat 0%nat 0%nat = -1).
  { intros x. unfold iti_jres_c, iti_row_factors, iti_jres, ahead, const_ip. cbn. unfold serial_eps. field. }
  assert (ER : forall x, error_at (fun _ s _ _ => s) ahead one_exo [[0]] 1 const_ip lb ub false nan x = Rabs (x 0%nat 0%nat 0%nat + x 0%nat 0%nat 0%nat ^ 2)).
  { intros x. unfold error_at. change (Nat.max (ex_n one_exo) 1) with 1%nat. change (length [[0]]) with 1%nat. rewrite tnorm_one, RS. reflexivity. }
  assert (TO : forall x p : tensor, today (fun _ s _ _ => s) ahead one_exo [[0]] 1 const_ip lb ub false nan x p 0%nat 0%nat 0%nat = (2 + 2 * x 0%nat 0%nat 0%nat + serial_eps) * p 0%nat 0%nat 0%nat).
  { intros x p. unfold today, present_effect. cbn [rsum]. rewrite DR. ring. }
  assert (TM : forall x p : tensor, tomorrow (fun _ s _ _ => s) ahead one_exo [[0]] 1 const_ip lb ub false nan x p 0%nat 0%nat 0%nat = - p 0%nat 0%nat 0%nat).
  { intros x p. unfold tomorrow, future_effect. change (dp_n (ex_dp one_exo) 0) with 1%nat. cbn [rsum]. rewrite JR. unfold control_of, const_ip. cbn [nth]. ring. }
  split; [|split].
  - intros a b p q r H i j S l Hi Hj Hl. unfold control_of, const_ip. replace l with 0%nat by lia. cbn [nth]. apply H; lia.
  - intros x Hx. rewrite TD in *. set (u := x 0%nat 0%nat 0%nat) in *.
    assert (Hu : - (1 / 10) <= u <= 1 / 10) by (revert Hx; unfold Rabs; destruct (Rcase_abs u); lra).
    assert (HD : 1.8 <= 2 + 2 * u + serial_eps) by (unfold serial_eps; lra).
    change (Nat.max (ex_n one_exo) 1) with 1%nat. change (length [[0]]) with 1%nat. repeat split.
    + intros i n Hi Hn (v & (k & Hk & Nz) & Hv). replace i with 0%nat in * by lia. replace n with 0%nat in * by lia. replace k with 0%nat in * by lia.
      specialize (Hv 0%nat ltac:(lia)). unfold mat_vec in Hv. cbn [rsum] in Hv. rewrite DR in Hv. fold u in Hv. assert ((2 + 2 * u + serial_eps) * v 0%nat = 0) as HH by lra.
      apply Rmult_integral in HH. destruct HH; [lra|contradiction].
    + intros p q H. rewrite !tnorm_one. specialize (H 0%nat 0%nat 0%nat ltac:(cbn; lia) ltac:(cbn; lia) ltac:(lia)). cbv beta in H. rewrite TO, TM in H. fold u in H.
      set (a := q 0%nat 0%nat 0%nat) in *. set (b := p 0%nat 0%nat 0%nat) in *. replace b with ((2 + 2 * u + serial_eps) * a) by lra.
      rewrite Rabs_mult, (Rabs_pos_eq (2 + 2 * u + serial_eps)) by lra. pose proof (Rabs_pos a). nra.
    + intros q z H. rewrite tnorm_one. specialize (H 0%nat 0%nat 0%nat ltac:(cbn; lia) ltac:(cbn; lia) ltac:(lia)). cbv beta in H. rewrite RS, !TO, TM in H. unfold z in H. rewrite Rminus_0_r in H. fold u in H.
      set (a := q 0%nat 0%nat 0%nat) in *. assert (E : (2 + 2 * u + serial_eps) * a = - (u + serial_eps) * u) by lra.
      assert (B : 1.8 * Rabs a <= Rabs (u + serial_eps) * Rabs u).
      { rewrite <- Rabs_mult, <- (Rabs_Ropp ((u + serial_eps) * u)). replace (- ((u + serial_eps) * u)) with ((2 + 2 * u + serial_eps) * a) by lra.
        rewrite Rabs_mult, (Rabs_pos_eq (2 + 2 * u + serial_eps)) by lra. pose proof (Rabs_pos a). nra. }
      pose proof (Rabs_pos u). pose proof (Rabs_triang u serial_eps) as T. rewrite (Rabs_pos_eq serial_eps) in T by (unfold serial_eps; lra).
      assert (Rabs (u + serial_eps) * Rabs u <= (Rabs u + serial_eps) * Rabs u) by (apply Rmult_le_compat_r; assumption).
      assert (serial_eps * Rabs u <= 1.8 * (4 / 9) * (1 / 10 ^ 7) * Rabs u) by (apply Rmult_le_compat_r; [assumption|unfold serial_eps; lra]). nra.
    + rewrite ER. fold u. replace (u + u ^ 2) with ((1 + u) * u) by ring. rewrite Rabs_mult, (Rabs_pos_eq (1 + u)) by lra. pose proof (Rabs_pos u). nra.
  - intros x Hx. rewrite TD in *. rewrite ER. set (u := x 0%nat 0%nat 0%nat) in *.
    assert (Hu : - (1 / 10) <= u <= 1 / 10) by (revert Hx; unfold Rabs; destruct (Rcase_abs u); lra).
    replace (u + u ^ 2) with ((1 + u) * u) by ring. rewrite Rabs_mult, (Rabs_pos_eq (1 + u)) by lra. pose proof (Rabs_pos u). nra.
Qed.
