(** Local quadratic convergence of ncpsolve at strict solutions (C149). *)
From Coq Require Import Reals Arith Lia Lra.
From Verif.Base Require Import Prelude Norms Sums Ext.
From Verif.Model Require Import LinearSolve Complementarity Newton.
From Verif.Spec Require Import LinearAlgebra Stationary NewtonRoot Complementarity NcpRegular.
From Verif.Proofs Require Import GaussFinal ErgodicProofs StationaryLaws NewtonConvergence FischerBurmeister NewtonProofs ComplementarityFinal.
Open Scope R_scope.

Section Nice.
  Variable n : nat.
  Variable xs : nat -> R.
  Notation D x := (dist n x xs).
  Notation nrm v := (supnorm n v).

  Definition nice_on (r L B : R) (u : (nat -> R) -> R) (U : (nat -> R) -> (nat -> R) -> R) : Prop :=
    forall x, D x <= r ->
      (forall v, Rabs (U x v) <= B * nrm v) /\
      (forall v, Rabs (U x v - U xs v) <= L * D x * nrm v) /\
      Rabs (u x - u xs - U x (fun j => x j - xs j)) <= L * D x ^ 2.
  Definition nice u U : Prop := exists r L B, 0 < r /\ 0 <= L /\ 0 <= B /\ nice_on r L B u U.

  Lemma D0 : D xs = 0.
  Proof. apply supnorm_zero_iff. intros i _. ring. Qed.
  Lemma Dpos : forall x, 0 <= D x.
  Proof. intros. apply dist_nonneg. Qed.
  Lemma nrm_diff : forall x, nrm (fun j => x j - xs j) = D x.
  Proof. reflexivity. Qed.

  Lemma nice_on_mono : forall r L B r' L' B' u U, 0 <= L -> r' <= r -> L <= L' -> B <= B' ->
    nice_on r L B u U -> nice_on r' L' B' u U.
  Proof.
    intros r L B r' L' B' u U HL Hr HLL HB H x Hx. destruct (H x ltac:(lra)) as (H1 & H2 & H3). pose proof (Dpos x) as Hd.
    assert (Hd2 : 0 <= D x ^ 2) by (apply pow2_ge_0).
    split; [|split].
    - intros v. eapply Rle_trans; [apply H1|]. apply Rmult_le_compat_r; [apply supnorm_nonneg|assumption].
    - intros v. eapply Rle_trans; [apply H2|]. apply Rmult_le_compat_r; [apply supnorm_nonneg|]. apply Rmult_le_compat_r; assumption.
    - eapply Rle_trans; [apply H3|]. apply Rmult_le_compat_r; assumption.
  Qed.

  (** Continuity. *)
  Lemma nice_on_cont : forall r L B u U, 0 <= L -> nice_on r L B u U ->
    forall x, D x <= r -> Rabs (u x - u xs) <= (B + L * r) * D x.
  Proof.
    intros r L B u U HL H x Hx. destruct (H x Hx) as (H1 & _ & H3). specialize (H1 (fun j => x j - xs j)). rewrite nrm_diff in H1.
    replace (u x - u xs) with ((u x - u xs - U x (fun j => x j - xs j)) + U x (fun j => x j - xs j)) by ring.
    eapply Rle_trans; [apply Rabs_triang|]. pose proof (Dpos x). assert (Q : L * D x ^ 2 <= L * r * D x).
    { replace (L * D x ^ 2) with (L * (D x * D x)) by ring. rewrite Rmult_assoc. apply Rmult_le_compat_l; [assumption|].
      apply Rmult_le_compat_r; assumption. }
    lra.
  Qed.

  Lemma nice_cont : forall u U, nice u U -> exists r C, 0 < r /\ 0 <= C /\ forall x, D x <= r -> Rabs (u x - u xs) <= C * D x.
  Proof.
    intros u U (r & L & B & Hr & HL & HB & H). exists r, (B + L * r). split; [assumption|]. split; [nra|].
    intros x Hx. apply (nice_on_cont r L B u U HL H x Hx).
  Qed.

  Lemma nice_near : forall u U eps, nice u U -> 0 < eps -> exists r, 0 < r /\ forall x, D x <= r -> Rabs (u x - u xs) <= eps.
  Proof.
    intros u U eps H He. destruct (nice_cont u U H) as (r & C & Hr & HC & Hb).
    exists (Rmin r (eps / (C + 1))). split.
    - apply Rmin_glb_lt; [assumption|]. apply Rdiv_lt_0_compat; lra.
    - intros x Hx. pose proof (Rmin_l r (eps / (C + 1))) as A1. pose proof (Rmin_r r (eps / (C + 1))) as A2.
      eapply Rle_trans; [apply Hb; lra|]. pose proof (Dpos x) as Hd.
      assert (Hq : (C + 1) * D x <= eps).
      { apply Rle_trans with ((C + 1) * (eps / (C + 1))); [apply Rmult_le_compat_l; lra|]. right. field. lra. }
      nra.
  Qed.

  Lemma nice_ext : forall u U u' U' r0, 0 < r0 ->
    (forall x, D x <= r0 -> u x = u' x /\ forall v, U x v = U' x v) -> nice u U -> nice u' U'.
  Proof.
    intros u U u' U' r0 Hr0 E (r & L & B & Hr & HL & HB & H). exists (Rmin r r0), L, B.
    split; [apply Rmin_glb_lt; assumption|]. split; [assumption|]. split; [assumption|]. intros x Hx.
    pose proof (Rmin_l r r0) as A1. pose proof (Rmin_r r r0) as A2.
    destruct (E x ltac:(lra)) as (E1 & E2). destruct (E xs ltac:(rewrite D0; lra)) as (E3 & E4).
    destruct (H x ltac:(lra)) as (H1 & H2 & H3). split; [|split].
    - intros v. rewrite <- E2. apply H1.
    - intros v. rewrite <- E2, <- E4. apply H2.
    - rewrite <- E1, <- E3, <- E2. exact H3.
  Qed.

  (** Two functions with the same constants. *)
  Lemma nice_two : forall u U w W, nice u U -> nice w W ->
    exists r L B, 0 < r /\ 0 <= L /\ 0 <= B /\ nice_on r L B u U /\ nice_on r L B w W.
  Proof.
    intros u U w W (r & L & B & Hr & HL & HB & H) (r' & L' & B' & Hr' & HL' & HB' & H').
    exists (Rmin r r'), (Rmax L L'), (Rmax B B').
    pose proof (Rmin_l r r'). pose proof (Rmin_r r r'). pose proof (Rmax_l L L'). pose proof (Rmax_r L L').
    pose proof (Rmax_l B B'). pose proof (Rmax_r B B').
    split; [apply Rmin_glb_lt; assumption|]. split; [lra|]. split; [lra|].
    split; [apply (nice_on_mono r L B)|apply (nice_on_mono r' L' B')]; assumption.
  Qed.

  Lemma nice_plus : forall u U w W, nice u U -> nice w W -> nice (fun x => u x + w x) (fun x v => U x v + W x v).
  Proof.
    intros u U w W Hu Hw. destruct (nice_two u U w W Hu Hw) as (r & L & B & Hr & HL & HB & H1 & H2).
    exists r, (L + L), (B + B). split; [assumption|]. split; [lra|]. split; [lra|]. intros x Hx.
    destruct (H1 x Hx) as (P1 & P2 & P3). destruct (H2 x Hx) as (Q1 & Q2 & Q3). split; [|split].
    - intros v. eapply Rle_trans; [apply Rabs_triang|]. specialize (P1 v). specialize (Q1 v). lra.
    - intros v. replace (U x v + W x v - (U xs v + W xs v)) with ((U x v - U xs v) + (W x v - W xs v)) by ring.
      eapply Rle_trans; [apply Rabs_triang|]. specialize (P2 v). specialize (Q2 v). lra.
    - match goal with |- Rabs ?e <= _ => replace e with ((u x - u xs - U x (fun j => x j - xs j)) + (w x - w xs - W x (fun j => x j - xs j))) by ring end.
      eapply Rle_trans; [apply Rabs_triang|]. lra.
  Qed.

  Lemma nice_scal : forall c u U, nice u U -> nice (fun x => c * u x) (fun x v => c * U x v).
  Proof.
    intros c u U (r & L & B & Hr & HL & HB & H). exists r, (Rabs c * L), (Rabs c * B).
    pose proof (Rabs_pos c). split; [assumption|]. split; [nra|]. split; [nra|]. intros x Hx.
    destruct (H x Hx) as (P1 & P2 & P3). split; [|split].
    - intros v. rewrite Rabs_mult, Rmult_assoc. apply Rmult_le_compat_l; auto.
    - intros v. rewrite <- Rmult_minus_distr_l, Rabs_mult, !Rmult_assoc. apply Rmult_le_compat_l; [assumption|].
      rewrite <- Rmult_assoc. apply P2.
    - rewrite <- !Rmult_minus_distr_l, Rabs_mult, Rmult_assoc. apply Rmult_le_compat_l; assumption.
  Qed.

  Lemma nice_coord : forall c i, (i < n)%nat -> nice (fun x => c - x i) (fun _ v => - v i).
  Proof.
    intros c i Hi. exists 1, 0, 1. split; [lra|]. split; [lra|]. split; [lra|]. intros x Hx. split; [|split].
    - intros v. rewrite Rabs_Ropp, Rmult_1_l. apply supnorm_ge. assumption.
    - intros v. rewrite Rminus_eq_0, Rabs_R0. lra.
    - replace (c - x i - (c - xs i) - - (x i - xs i)) with 0 by ring. rewrite Rabs_R0. lra.
  Qed.

  (** The Euclidean norm of two functions, away from zero. *)
  Lemma sq_norm : forall p q, 0 <= sqrt (p ^ 2 + q ^ 2) /\ sqrt (p ^ 2 + q ^ 2) ^ 2 = p ^ 2 + q ^ 2 /\
    Rabs p <= sqrt (p ^ 2 + q ^ 2) /\ Rabs q <= sqrt (p ^ 2 + q ^ 2).
  Proof.
    intros p q. pose proof (pow2_ge_0 p). pose proof (pow2_ge_0 q). split; [apply sqrt_pos|]. split; [rewrite pow2_sqrt; lra|].
    split.
    - rewrite <- (sqrt_Rsqr_abs p). apply sqrt_le_1_alt. unfold Rsqr. lra.
    - rewrite <- (sqrt_Rsqr_abs q). apply sqrt_le_1_alt. unfold Rsqr. lra.
  Qed.

  (** [|p| - |p0|], and the expansion of the norm at [p] towards [p0]. *)
  Lemma norm_change : forall p q p0 q0, Rabs (sqrt (p ^ 2 + q ^ 2) - sqrt (p0 ^ 2 + q0 ^ 2)) <= Rabs (p - p0) + Rabs (q - q0).
  Proof.
    assert (Half : forall p q p0 q0, sqrt (p ^ 2 + q ^ 2) <= sqrt (p0 ^ 2 + q0 ^ 2) + (Rabs (p - p0) + Rabs (q - q0))).
    { intros p q p0 q0. destruct (sq_norm p q) as (N1 & N2 & N3 & N4). destruct (sq_norm p0 q0) as (M1 & M2 & M3 & M4).
      set (N := sqrt (p ^ 2 + q ^ 2)) in *. set (N0 := sqrt (p0 ^ 2 + q0 ^ 2)) in *.
      pose proof (Rabs_pos (p - p0)) as A. pose proof (Rabs_pos (q - q0)) as B.
      set (s := Rabs (p - p0)) in *. set (t := Rabs (q - q0)) in *.
      assert (S2 : s ^ 2 = (p - p0) ^ 2) by (unfold s; apply pow2_abs). assert (T2 : t ^ 2 = (q - q0) ^ 2) by (unfold t; apply pow2_abs).
      assert (C1 : p0 * (p - p0) <= N0 * s).
      { apply Rle_trans with (Rabs (p0 * (p - p0))); [apply Rle_abs|]. rewrite Rabs_mult. apply Rmult_le_compat_r; assumption. }
      assert (C2 : q0 * (q - q0) <= N0 * t).
      { apply Rle_trans with (Rabs (q0 * (q - q0))); [apply Rle_abs|]. rewrite Rabs_mult. apply Rmult_le_compat_r; assumption. }
      apply Rsqr_incr_0_var; [|lra]. unfold Rsqr. clearbody N N0 s t. nra. }
    intros p q p0 q0. apply Rabs_le. pose proof (Half p q p0 q0) as H1. pose proof (Half p0 q0 p q) as H2.
    rewrite (Rabs_minus_sym p0 p), (Rabs_minus_sym q0 q) in H2. lra.
  Qed.

  Lemma norm_expansion : forall p q p0 q0, 0 < sqrt (p ^ 2 + q ^ 2) ->
    Rabs (sqrt (p ^ 2 + q ^ 2) - sqrt (p0 ^ 2 + q0 ^ 2) - (p / sqrt (p ^ 2 + q ^ 2) * (p - p0) + q / sqrt (p ^ 2 + q ^ 2) * (q - q0)))
    <= ((p - p0) ^ 2 + (q - q0) ^ 2) / sqrt (p ^ 2 + q ^ 2).
  Proof.
    intros p q p0 q0. destruct (sq_norm p q) as (N1 & N2 & N3 & N4). destruct (sq_norm p0 q0) as (M1 & M2 & M3 & M4).
    set (N := sqrt (p ^ 2 + q ^ 2)) in *. set (N0 := sqrt (p0 ^ 2 + q0 ^ 2)) in *. intros HN.
    replace (N - N0 - (p / N * (p - p0) + q / N * (q - q0))) with ((p * p0 + q * q0 - N * N0) / N).
    2:{ replace (N - N0 - (p / N * (p - p0) + q / N * (q - q0))) with ((N ^ 2 - N * N0 - (p ^ 2 + q ^ 2) + (p * p0 + q * q0)) / N) by (field; lra).
        rewrite N2. f_equal. ring. }
    unfold Rdiv. rewrite Rabs_mult. rewrite (Rabs_pos_eq (/ N)) by (left; apply Rinv_0_lt_compat; assumption).
    apply Rmult_le_compat_r; [left; apply Rinv_0_lt_compat; assumption|].
    assert (C1 : (p * p0 + q * q0) ^ 2 <= (N * N0) ^ 2).
    { rewrite Rpow_mult_distr, N2, M2. pose proof (pow2_ge_0 (p * q0 - q * p0)) as X. ring_simplify in X. ring_simplify. lra. }
    assert (C2 : p * p0 + q * q0 <= N * N0).
    { apply Rsqr_incr_0_var; [rewrite !Rsqr_pow2; exact C1|]. apply Rmult_le_pos; assumption. }
    rewrite Rabs_left1 by lra. pose proof (pow2_ge_0 (N - N0)) as X. ring_simplify in X. ring_simplify. lra.
  Qed.

  Lemma nice_norm : forall u U w W, nice u U -> nice w W -> 0 < sqrt (u xs ^ 2 + w xs ^ 2) ->
    nice (fun x => sqrt (u x ^ 2 + w x ^ 2))
         (fun x v => u x / sqrt (u x ^ 2 + w x ^ 2) * U x v + w x / sqrt (u x ^ 2 + w x ^ 2) * W x v) /\
    exists r, 0 < r /\ forall x, D x <= r -> 0 < sqrt (u x ^ 2 + w x ^ 2).
  Proof.
    intros u U w W Hu Hw HN. set (N0 := sqrt (u xs ^ 2 + w xs ^ 2)) in *.
    destruct (nice_near u U (N0 / 4) Hu ltac:(lra)) as (r1 & Hr1 & K1). destruct (nice_near w W (N0 / 4) Hw ltac:(lra)) as (r2 & Hr2 & K2).
    destruct (nice_two u U w W Hu Hw) as (r3 & L & B & Hr3 & HL & HB & H1 & H2).
    set (r := Rmin (Rmin r1 r2) r3).
    assert (Hr : 0 < r) by (unfold r; repeat apply Rmin_glb_lt; assumption).
    assert (Hrr : r <= r1 /\ r <= r2 /\ r <= r3).
    { unfold r. pose proof (Rmin_l (Rmin r1 r2) r3). pose proof (Rmin_r (Rmin r1 r2) r3). pose proof (Rmin_l r1 r2). pose proof (Rmin_r r1 r2). lra. }
    clearbody r.
    assert (HNx : forall x, D x <= r -> N0 / 2 <= sqrt (u x ^ 2 + w x ^ 2)).
    { intros x Hx. pose proof (norm_change (u x) (w x) (u xs) (w xs)) as E. fold N0 in E.
      specialize (K1 x ltac:(lra)). specialize (K2 x ltac:(lra)).
      pose proof (Rle_abs (- (sqrt (u x ^ 2 + w x ^ 2) - N0))) as E'. rewrite Rabs_Ropp in E'. lra. }
    split; [|exists r; split; [assumption|intros x Hx; specialize (HNx x Hx); lra]].
    set (C := B + L * r3). assert (HC : 0 <= C) by (unfold C; nra).
    exists r, (2 * L + 12 * C * B / N0 + 8 * C ^ 2 / N0), (B + B).
    assert (Q1 : 0 <= 12 * C * B / N0) by (apply Rmult_le_pos; [nra|left; apply Rinv_0_lt_compat; assumption]).
    assert (Q2 : 0 <= 8 * C ^ 2 / N0) by (apply Rmult_le_pos; [nra|left; apply Rinv_0_lt_compat; assumption]).
    split; [assumption|]. split; [lra|]. split; [lra|]. intros x Hx.
    destruct (H1 x ltac:(lra)) as (P1 & P2 & P3). destruct (H2 x ltac:(lra)) as (R1 & R2 & R3).
    destruct (H1 xs ltac:(rewrite D0; lra)) as (S1 & _ & _). destruct (H2 xs ltac:(rewrite D0; lra)) as (T1 & _ & _).
    pose proof (nice_on_cont r3 L B u U HL H1 x ltac:(lra)) as Cu. pose proof (nice_on_cont r3 L B w W HL H2 x ltac:(lra)) as Cw.
    fold C in Cu, Cw. specialize (HNx x Hx). pose proof (Dpos x) as Hd.
    destruct (sq_norm (u x) (w x)) as (_ & _ & N3 & N4). destruct (sq_norm (u xs) (w xs)) as (_ & _ & M3 & M4).
    pose proof (norm_change (u x) (w x) (u xs) (w xs)) as NC.
    pose proof (norm_expansion (u x) (w x) (u xs) (w xs) ltac:(lra)) as NE.
    cbv beta. fold N0. fold N0 in M3, M4, NC, NE. set (N := sqrt (u x ^ 2 + w x ^ 2)) in *. clearbody N0. clearbody N.
    assert (HNpos : 0 < N) by lra.
    assert (HI : 0 < / N) by (apply Rinv_0_lt_compat; assumption).
    assert (HI2 : / N <= 2 / N0).
    { replace (2 / N0) with (/ (N0 / 2)) by (field; lra). apply Rinv_le_contravar; lra. }
    assert (au : Rabs (u x / N) <= 1).
    { unfold Rdiv. rewrite Rabs_mult, (Rabs_pos_eq (/ N)) by lra. apply Rmult_le_reg_r with N; [assumption|].
      rewrite Rmult_assoc, Rinv_l by lra. lra. }
    assert (aw : Rabs (w x / N) <= 1).
    { unfold Rdiv. rewrite Rabs_mult, (Rabs_pos_eq (/ N)) by lra. apply Rmult_le_reg_r with N; [assumption|].
      rewrite Rmult_assoc, Rinv_l by lra. lra. }
    assert (Ratio : forall p p0, Rabs p0 <= N0 -> Rabs (p - p0) <= C * D x -> Rabs (p / N - p0 / N0) <= 6 * C / N0 * D x).
    { intros p p0 Hp0 Hp.
      replace (p / N - p0 / N0) with (/ N * ((p - p0) + p0 / N0 * (N0 - N))) by (field; lra).
      rewrite Rabs_mult, (Rabs_pos_eq (/ N)) by lra.
      assert (E : Rabs ((p - p0) + p0 / N0 * (N0 - N)) <= 3 * C * D x).
      { eapply Rle_trans; [apply Rabs_triang|]. rewrite Rabs_mult.
        assert (A1 : Rabs (p0 / N0) <= 1).
        { unfold Rdiv. rewrite Rabs_mult, (Rabs_pos_eq (/ N0)) by (left; apply Rinv_0_lt_compat; assumption).
          apply Rmult_le_reg_r with N0; [assumption|]. rewrite Rmult_assoc, Rinv_l by lra. lra. }
        assert (A2 : Rabs (N0 - N) <= 2 * C * D x) by (rewrite Rabs_minus_sym; lra).
        pose proof (Rabs_pos (p0 / N0)). pose proof (Rabs_pos (N0 - N)). nra. }
      apply Rle_trans with (2 / N0 * (3 * C * D x)).
      - apply Rmult_le_compat; [lra|apply Rabs_pos|assumption|assumption].
      - right. field. lra. }
    split; [|split].
    - intros v. eapply Rle_trans; [apply Rabs_triang|]. rewrite !Rabs_mult. specialize (P1 v). specialize (R1 v).
      pose proof (Rabs_pos (U x v)). pose proof (Rabs_pos (W x v)). pose proof (Rabs_pos (u x / N)). pose proof (Rabs_pos (w x / N)). nra.
    - intros v. specialize (P2 v). specialize (R2 v). specialize (S1 v). specialize (T1 v).
      pose proof (Ratio (u x) (u xs) M3 Cu) as ru. pose proof (Ratio (w x) (w xs) M4 Cw) as rw.
      match goal with |- Rabs ?e <= _ => replace e with
        (u x / N * (U x v - U xs v) + (u x / N - u xs / N0) * U xs v + (w x / N * (W x v - W xs v) + (w x / N - w xs / N0) * W xs v)) by ring end.
      assert (Each : forall k Dk rk Uk, Rabs k <= 1 -> Rabs Dk <= L * D x * nrm v -> Rabs rk <= 6 * C / N0 * D x -> Rabs Uk <= B * nrm v ->
                Rabs (k * Dk + rk * Uk) <= L * D x * nrm v + 6 * C * B / N0 * D x * nrm v).
      { intros k Dk rk Uk e1 e2 e3 e4. eapply Rle_trans; [apply Rabs_triang|]. rewrite !Rabs_mult.
        apply Rplus_le_compat.
        - rewrite <- (Rmult_1_l (L * D x * nrm v)). apply Rmult_le_compat; try apply Rabs_pos; assumption.
        - replace (6 * C * B / N0 * D x * nrm v) with ((6 * C / N0 * D x) * (B * nrm v)) by (field; lra).
          apply Rmult_le_compat; try apply Rabs_pos; assumption. }
      eapply Rle_trans; [apply Rabs_triang|].
      pose proof (Each _ _ _ _ au P2 ru S1) as E1. pose proof (Each _ _ _ _ aw R2 rw T1) as E2.
      pose proof (supnorm_nonneg n v) as Hv.
      assert (Extra : 0 <= 8 * C ^ 2 / N0 * D x * nrm v) by (repeat apply Rmult_le_pos; try assumption; lra).
      replace ((2 * L + 12 * C * B / N0 + 8 * C ^ 2 / N0) * D x * nrm v) with
        ((L * D x * nrm v + 6 * C * B / N0 * D x * nrm v) + (L * D x * nrm v + 6 * C * B / N0 * D x * nrm v) + 8 * C ^ 2 / N0 * D x * nrm v) by (field; lra).
      lra.
    - set (dx := fun j => x j - xs j) in *.
      match goal with |- Rabs ?e <= _ => replace e with
        ((N - N0 - (u x / N * (u x - u xs) + w x / N * (w x - w xs))) +
         (u x / N * (u x - u xs - U x dx) + w x / N * (w x - w xs - W x dx))) by ring end.
      eapply Rle_trans; [apply Rabs_triang|].
      assert (E1 : Rabs (N - N0 - (u x / N * (u x - u xs) + w x / N * (w x - w xs))) <= 8 * C ^ 2 / N0 * D x ^ 2).
      { eapply Rle_trans; [apply NE|]. unfold Rdiv at 1.
        assert (F1 : (u x - u xs) ^ 2 <= (C * D x) ^ 2) by (rewrite <- pow2_abs; apply pow_incr; split; [apply Rabs_pos|assumption]).
        assert (F2 : (w x - w xs) ^ 2 <= (C * D x) ^ 2) by (rewrite <- pow2_abs; apply pow_incr; split; [apply Rabs_pos|assumption]).
        pose proof (pow2_ge_0 (u x - u xs)). pose proof (pow2_ge_0 (w x - w xs)).
        apply Rle_trans with (2 * (C * D x) ^ 2 * (2 / N0)).
        - apply Rmult_le_compat; lra.
        - replace (2 * (C * D x) ^ 2 * (2 / N0)) with (4 * C ^ 2 / N0 * D x ^ 2) by (field; lra).
          pose proof (pow2_ge_0 (D x)). apply Rmult_le_compat_r; [assumption|].
          unfold Rdiv. apply Rmult_le_compat_r; [left; apply Rinv_0_lt_compat; assumption|]. nra. }
      assert (E2 : Rabs (u x / N * (u x - u xs - U x dx) + w x / N * (w x - w xs - W x dx)) <= 2 * L * D x ^ 2).
      { eapply Rle_trans; [apply Rabs_triang|]. rewrite !Rabs_mult.
        pose proof (Rabs_pos (u x / N)). pose proof (Rabs_pos (w x / N)).
        pose proof (Rabs_pos (u x - u xs - U x dx)). pose proof (Rabs_pos (w x - w xs - W x dx)). nra. }
      assert (E3 : 0 <= 12 * C * B / N0 * D x ^ 2) by (apply Rmult_le_pos; [assumption|apply pow2_ge_0]).
      lra.
  Qed.
End Nice.

Section Entry.
  Variable n : nat.
  Variable xs : nat -> R.
  Notation D x := (dist n x xs).
  Variable i : nat.
  Hypothesis Hi : (i < n)%nat.
  Notation nice := (nice n xs).

  Definition ncp_mval (b : ext) (x p : R) : option R :=
    if ext_geb b BIG then Some p
    else match b with Fin r => Some (p - sqrt (p ^ 2 + (r - x) ^ 2) + (r - x)) | _ => None end.
  Lemma ncp_value_steps : forall a b x fx, ncp_value a b x fx = match ncp_pval a x fx with None => None | Some p => ncp_mval b x p end.
  Proof. reflexivity. Qed.

  Lemma nice_dp : forall a g G, nice g G -> ncp_dp a (xs i) (g xs) <> None ->
    exists p P r, nice p P /\ 0 < r /\ forall x, D x <= r ->
      ncp_pval a (x i) (g x) = Some (p x) /\
      exists y z, ncp_dp a (x i) (g x) = Some (y, z) /\ forall v, P x v = y * G x v - z * v i.
  Proof.
    intros a g G Hg Hd. unfold ncp_dp, ncp_pval in *. destruct (ext_leb a (- BIG)) eqn:Ea.
    - exists g, G, 1. split; [assumption|]. split; [lra|]. intros x _. split; [reflexivity|]. exists 1, 0. split; [reflexivity|]. intros v. ring.
    - destruct a as [|ra|]; [congruence| |congruence].
      destruct (Req_EM_T (sqrt (g xs ^ 2 + (ra - xs i) ^ 2)) 0) as [E|NE]; [congruence|]. clear Hd.
      pose proof (sqrt_pos (g xs ^ 2 + (ra - xs i) ^ 2)) as Hp.
      pose proof (nice_coord n xs ra i Hi) as Hc.
      destruct (nice_norm n xs g G (fun x => ra - x i) (fun _ v => - v i) Hg Hc ltac:(cbv beta; lra)) as (HN & r & Hr & Hpos).
      cbv beta in HN, Hpos.
      eexists. eexists. exists r. split; [|split; [assumption|]].
      + apply nice_plus; [apply nice_plus; [exact Hg|exact HN]|exact Hc].
      + intros x Hx. specialize (Hpos x Hx). cbv beta. split; [reflexivity|].
        destruct (Req_EM_T (sqrt (g x ^ 2 + (ra - x i) ^ 2)) 0) as [E'|NE']; [lra|].
        eexists. eexists. split; [reflexivity|]. intros v. field. exact NE'.
  Qed.

  Lemma nice_dm : forall b p P, nice p P -> ncp_dm b (xs i) (p xs) <> None ->
    exists q Q r, nice q Q /\ 0 < r /\ forall x, D x <= r ->
      ncp_mval b (x i) (p x) = Some (q x) /\
      exists y z, ncp_dm b (x i) (p x) = Some (y, z) /\ forall v, Q x v = y * P x v - z * v i.
  Proof.
    intros b p P Hg Hd. unfold ncp_dm, ncp_mval in *. destruct (ext_geb b BIG) eqn:Ea.
    - exists p, P, 1. split; [assumption|]. split; [lra|]. intros x _. split; [reflexivity|]. exists 1, 0. split; [reflexivity|]. intros v. ring.
    - destruct b as [|rb|]; [congruence| |congruence].
      destruct (Req_EM_T (sqrt (p xs ^ 2 + (rb - xs i) ^ 2)) 0) as [E|NE]; [congruence|]. clear Hd.
      pose proof (sqrt_pos (p xs ^ 2 + (rb - xs i) ^ 2)) as Hp.
      pose proof (nice_coord n xs rb i Hi) as Hc.
      destruct (nice_norm n xs p P (fun x => rb - x i) (fun _ v => - v i) Hg Hc ltac:(cbv beta; lra)) as (HN & r & Hr & Hpos).
      cbv beta in HN, Hpos.
      eexists. eexists. exists r. split; [|split; [assumption|]].
      + apply nice_plus; [apply nice_plus; [exact Hg|apply (nice_scal n xs (-1)); exact HN]|exact Hc].
      + intros x Hx. specialize (Hpos x Hx). cbv beta. split; [f_equal; ring|].
        destruct (Req_EM_T (sqrt (p x ^ 2 + (rb - x i) ^ 2)) 0) as [E'|NE']; [lra|].
        eexists. eexists. split; [reflexivity|]. intros v. field. exact NE'.
  Qed.

  Lemma nice_entry : forall a b g G, nice g G -> ncp_coefs a b (xs i) (g xs) <> None ->
    exists q Q r, nice q Q /\ 0 < r /\ forall x, D x <= r ->
      ncp_value a b (x i) (g x) = Some (q x) /\
      exists ff xx, ncp_coefs a b (x i) (g x) = Some (ff, xx) /\ forall v, Q x v = ff * G x v - xx * v i.
  Proof.
    intros a b g G Hg Hc. unfold ncp_coefs in Hc.
    assert (Hdp : ncp_dp a (xs i) (g xs) <> None).
    { intros E. rewrite E in Hc. destruct (ncp_pval a (xs i) (g xs)); apply Hc; reflexivity. }
    destruct (nice_dp a g G Hg Hdp) as (p & P & r1 & Hp & Hr1 & H1).
    destruct (H1 xs ltac:(rewrite D0; lra)) as (E0 & _). rewrite E0 in Hc.
    assert (Hdm : ncp_dm b (xs i) (p xs) <> None).
    { intros E. rewrite E in Hc. destruct (ncp_dp a (xs i) (g xs)) as [[? ?]|]; apply Hc; reflexivity. }
    destruct (nice_dm b p P Hp Hdm) as (q & Q & r2 & Hq & Hr2 & H2).
    exists q, Q, (Rmin r1 r2). split; [assumption|]. split; [apply Rmin_glb_lt; assumption|]. intros x Hx.
    pose proof (Rmin_l r1 r2). pose proof (Rmin_r r1 r2).
    destruct (H1 x ltac:(lra)) as (E1 & y & z & Edp & EP). destruct (H2 x ltac:(lra)) as (E2 & y' & z' & Edm & EQ).
    rewrite ncp_value_steps, E1. split; [exact E2|]. exists (y' * y), (y' * z + z'). unfold ncp_coefs. rewrite E1, Edp, Edm.
    split; [reflexivity|]. intros v. rewrite EQ, EP. ring.
  Qed.
End Entry.

(** The coefficients at a strict solution. *)
Lemma coefs_at_solution : forall a b x f, strict_solution (lower_cut BIG a) (upper_cut BIG b) x f ->
  (inside (lower_cut BIG a) (upper_cut BIG b) x -> ncp_coefs a b x (- f) = Some (1, 0)) /\
  (~ inside (lower_cut BIG a) (upper_cut BIG b) x -> ncp_coefs a b x (- f) = Some (0, 1)).
Proof.
  assert (Sq : forall t, sqrt (t ^ 2) = Rabs t).
  { intros t. rewrite <- Rsqr_pow2. apply sqrt_Rsqr_abs. }
  intros a b x f HS.
  assert (Lower : forall fx, (ext_lt_l (lower_cut BIG a) x /\ fx = 0) -> ncp_pval a x fx = Some 0 /\ ncp_dp a x fx = Some (1, 0)).
  { intros fx (Hl & ->). unfold ncp_pval, ncp_dp, lower_cut in *. destruct (ext_leb a (- BIG)) eqn:Eb; [split; reflexivity|].
    destruct a as [|ra|]; cbn in Hl; [discriminate Eb| |contradiction].
    replace (0 ^ 2 + (ra - x) ^ 2) with ((ra - x) ^ 2) by ring. rewrite Sq, Rabs_left by lra. split; [f_equal; ring|].
    destruct (Req_EM_T (- (ra - x)) 0); [lra|]. f_equal. f_equal; field; lra. }
  assert (Upper : ext_lt_r x (upper_cut BIG b) -> ncp_dm b x 0 = Some (1, 0)).
  { intros Hr. unfold ncp_dm, upper_cut in *. destruct (ext_geb b BIG) eqn:Eb; [reflexivity|].
    destruct b as [|rb|]; cbn in Hr; [contradiction| |discriminate Eb].
    replace (0 ^ 2 + (rb - x) ^ 2) with ((rb - x) ^ 2) by ring. rewrite Sq, Rabs_pos_eq by lra.
    destruct (Req_EM_T (rb - x) 0); [lra|]. f_equal. f_equal; field; lra. }
  destruct HS as [((Hl & Hr) & ->)|[(Ea & Hr & Hf)|(Eb & Hl & Hf)]].
  - split; [|intros H; exfalso; apply H; split; assumption]. intros _. rewrite Ropp_0. unfold ncp_coefs.
    destruct (Lower 0 (conj Hl eq_refl)) as (-> & ->). rewrite (Upper Hr). f_equal. f_equal; ring.
  - split.
    + intros (Hl & _). rewrite Ea in Hl. cbn in Hl. lra.
    + intros _. unfold ncp_coefs.
      assert (E : ncp_pval a x (- f) = Some 0 /\ ncp_dp a x (- f) = Some (0, 1)).
      { unfold ncp_pval, ncp_dp, lower_cut in *. destruct (ext_leb a (- BIG)); [discriminate|]. subst a.
        replace ((- f) ^ 2 + (x - x) ^ 2) with (f ^ 2) by ring. rewrite Sq, Rabs_pos_eq by lra. split; [f_equal; ring|].
        destruct (Req_EM_T f 0); [lra|]. f_equal. f_equal; field; lra. }
      destruct E as (-> & ->). rewrite (Upper Hr). f_equal. f_equal; ring.
  - split.
    + intros (_ & Hr). rewrite Eb in Hr. cbn in Hr. lra.
    + intros _. unfold ncp_coefs.
      assert (E : exists p y z, ncp_pval a x (- f) = Some p /\ ncp_dp a x (- f) = Some (y, z) /\ 0 < p).
      { unfold ncp_pval, ncp_dp, lower_cut in *. destruct (ext_leb a (- BIG)) eqn:Ea.
        - exists (- f), 1, 0. split; [reflexivity|]. split; [reflexivity|lra].
        - destruct a as [|ra|]; cbn in Hl; [discriminate Ea| |contradiction].
          assert (Hs : Rabs (ra - x) <= sqrt ((- f) ^ 2 + (ra - x) ^ 2)) by (apply sq_norm).
          rewrite Rabs_left in Hs by lra.
          destruct (Req_EM_T (sqrt ((- f) ^ 2 + (ra - x) ^ 2)) 0); [lra|].
          eexists. eexists. eexists. split; [reflexivity|]. split; [reflexivity|]. lra. }
      destruct E as (p & y & z & -> & -> & Hp).
      assert (Em : ncp_dm b x p = Some (0, 1)).
      { unfold ncp_dm, upper_cut in *. destruct (ext_geb b BIG); [discriminate|]. subst b.
        replace (p ^ 2 + (x - x) ^ 2) with (p ^ 2) by ring. rewrite Sq, Rabs_pos_eq by lra.
        destruct (Req_EM_T p 0); [lra|]. f_equal. f_equal; field; lra. }
      rewrite Em. f_equal. f_equal; ring.
Qed.

Lemma strict_is_solution : forall a b x f, strict_solution a b x f -> mcp a b x f.
Proof.
  intros a b x f [((Hl & Hr) & ->)|[(-> & Hr & Hf)|(-> & Hl & Hf)]]; unfold mcp.
  - destruct a, b; cbn in *; try contradiction; repeat split; intros; lra.
  - destruct b; cbn in *; try contradiction; repeat split; intros; lra.
  - destruct a; cbn in *; try contradiction; repeat split; intros; lra.
Qed.

(** A regular matrix has a bounded inverse. *)
Lemma inverse_bound : forall n A, ~ singular n A -> exists K, 0 < K /\ forall v, supnorm n v <= K * supnorm n (mat_vec n A v).
Proof.
  intros n A HA.
  set (X := fun j => match gauss_solve n A (eye j) with Ok x => x | Err _ => fun _ => 0 end).
  assert (HX : forall j, solves n A (eye j) (X j)).
  { intros j. unfold X. destruct (gauss_solve n A (eye j)) as [x|e] eqn:E.
    - exact (proj1 (gauss_exact_solver n A (eye j) x E)).
    - exfalso. apply HA. exact (gauss_complete_solver n A (eye j) e E). }
  exists (1 + rsum n (fun i => rsum n (fun j => Rabs (X j i)))).
  assert (HS : 0 <= rsum n (fun i => rsum n (fun j => Rabs (X j i)))).
  { apply rsum_nonneg. intros i _. apply rsum_nonneg. intros j _. apply Rabs_pos. }
  split; [lra|]. intros v. set (w := mat_vec n A v).
  assert (Ey : forall i, (i < n)%nat -> v i = rsum n (fun j => w j * X j i)).
  { assert (Sy : solves n A w (fun i => rsum n (fun j => w j * X j i))).
    { intros i Hi. unfold mat_vec.
      rewrite (rsum_ext n _ (fun k => rsum n (fun j => w j * (A i k * X j k)))).
      2:{ intros k _. rewrite <- rsum_scal. apply rsum_ext. intros j _. ring. }
      rewrite rsum_swap. rewrite (rsum_ext n _ (fun j => w j * eye j i)).
      2:{ intros j _. rewrite rsum_scal. f_equal. apply (HX j i Hi). }
      rewrite (rsum_single n i); [unfold eye; rewrite Nat.eqb_refl; ring|assumption|].
      intros k _ Hk. unfold eye. destruct (Nat.eqb_spec k i); [contradiction|ring]. }
    assert (Sv : solves n A w v) by (intros i Hi; reflexivity).
    destruct (gauss_solve n A w) as [z|e] eqn:E.
    - destruct (gauss_exact_solver n A w z E) as (_ & U). intros i Hi. rewrite (U _ Sv i Hi). symmetry. apply (U _ Sy i Hi).
    - exfalso. apply HA. exact (gauss_complete_solver n A w e E). }
  pose proof (supnorm_nonneg n w) as Hw.
  apply supnorm_le; [nra|]. intros i Hi. rewrite (Ey i Hi).
  eapply Rle_trans; [apply rsum_abs|].
  apply Rle_trans with (rsum n (fun j => Rabs (X j i)) * supnorm n w).
  - rewrite <- rsum_scal_r. apply rsum_le. intros j Hj. rewrite Rabs_mult, Rmult_comm. apply Rmult_le_compat_l; [apply Rabs_pos|].
    apply supnorm_ge. assumption.
  - apply Rmult_le_compat_r; [assumption|].
    assert (Q : rsum n (fun j => Rabs (X j i)) <= rsum n (fun i => rsum n (fun j => Rabs (X j i)))).
    { clear - Hi. revert Hi. generalize n at 1 3 as m. intros m. induction m as [|m IH]; intros Hi; [lia|]. cbn [rsum].
      assert (P : forall k, 0 <= rsum n (fun j => Rabs (X j k))) by (intros k; apply rsum_nonneg; intros; apply Rabs_pos).
      destruct (Nat.eq_dec i m) as [->|Hne].
      - assert (0 <= rsum m (fun i => rsum n (fun j => Rabs (X j i)))) by (apply rsum_nonneg; intros; apply P). lra.
      - specialize (IH ltac:(lia)). specialize (P m). lra. }
    lra.
Qed.

Section Main.
  Variable nan : R.
  Variable n : nat.
  Variable jt : jactype.
  Variable f : (nat -> R) -> (nat -> R) * (nat -> nat -> R).
  Variables a b : nat -> ext.
  Variable xs : nat -> R.
  Notation D x := (dist n x xs).
  Notation H := (ncp_fcmp nan jt a b f).
  Hypothesis Hn : (0 < n)%nat.
  Hypothesis Hjt : jt <> JFull.
  Hypothesis Hsmooth : smooth_system n f xs.
  Notation la i := (lower_cut BIG (a i)).
  Notation ub i := (upper_cut BIG (b i)).
  Hypothesis Hstrict : forall i, (i < n)%nat -> strict_solution (la i) (ub i) (xs i) (fst (f xs) i).
  Hypothesis Hreg : regular_inside n (fun i => la i) (fun i => ub i) xs (snd (f xs)).

  Lemma H_value : forall x i, fst (H x) i = or_nan nan (ncp_value (a i) (b i) (x i) (- fst (f x) i)).
  Proof. intros x i. unfold ncp_fcmp. destruct (f x) as [v J]. cbn [fst]. unfold ncp_smooth_value. destruct jt; try reflexivity. contradiction. Qed.

  Lemma H_row : forall x i v ff xx, (i < n)%nat -> ncp_coefs (a i) (b i) (x i) (- fst (f x) i) = Some (ff, xx) ->
    mat_vec n (snd (H x)) v i = ff * (- mat_vec n (snd (f x)) v i) - xx * v i.
  Proof.
    intros x i v ff xx Hi E. unfold mat_vec.
    rewrite (rsum_ext n _ (fun j => ff * (- (snd (f x) i j * v j)) - (if Nat.eqb i j then xx * v j else 0))).
    - rewrite rsum_minus, rsum_scal, rsum_opp. f_equal. rewrite (rsum_single n i); [rewrite Nat.eqb_refl; reflexivity|assumption|].
      intros k _ Hk. destruct (Nat.eqb_spec i k); [congruence|reflexivity].
    - intros j _. unfold ncp_fcmp. destruct (f x) as [u J]. cbn [fst snd] in *. unfold ncp_smooth_jac. rewrite E.
      destruct jt; try contradiction; cbn [or_nan]; destruct (Nat.eqb i j); ring.
  Qed.

  Lemma coefs_xs : forall i, (i < n)%nat -> ncp_coefs (a i) (b i) (xs i) (- fst (f xs) i) <> None.
  Proof.
    intros i Hi. destruct (coefs_at_solution _ _ _ _ (Hstrict i Hi)) as (A & B).
    assert (Dec : inside (la i) (ub i) (xs i) \/ ~ inside (la i) (ub i) (xs i)).
    { destruct (Hstrict i Hi) as [(I & _)|[(E & _)|(E & _)]]; [left; exact I|right|right]; intros (I1 & I2).
      - rewrite E in I1. cbn in I1. lra.
      - rewrite E in I2. cbn in I2. lra. }
    destruct Dec as [I|I]; [rewrite (A I)|rewrite (B I)]; discriminate.
  Qed.

  Lemma H_regular : ~ singular n (snd (H xs)).
  Proof.
    intros (z & (k & Hk & Hz) & Hs). apply Hz. apply (Hreg z); [| |assumption].
    - intros i Hi I. destruct (coefs_at_solution _ _ _ _ (Hstrict i Hi)) as (_ & B).
      specialize (Hs i Hi). rewrite (H_row xs i z 0 1 Hi (B I)) in Hs. lra.
    - intros i Hi I. destruct (coefs_at_solution _ _ _ _ (Hstrict i Hi)) as (A & _).
      specialize (Hs i Hi). rewrite (H_row xs i z 1 0 Hi (A I)) in Hs. lra.
  Qed.

  Lemma row_bound : forall (J : nat -> nat -> R) v i, Rabs (mat_vec n J v i) <= rsum n (fun j => Rabs (J i j)) * supnorm n v.
  Proof.
    intros J v i. unfold mat_vec. eapply Rle_trans; [apply rsum_abs|]. rewrite <- rsum_scal_r. apply rsum_le. intros j Hj.
    rewrite Rabs_mult. apply Rmult_le_compat_l; [apply Rabs_pos|]. apply supnorm_ge. assumption.
  Qed.

  Lemma nice_system : forall i, (i < n)%nat -> nice n xs (fun x => - fst (f x) i) (fun x v => - mat_vec n (snd (f x)) v i).
  Proof.
    intros i Hi. destruct Hsmooth as (r & L & Hr & HL & HS).
    exists r, L, (rsum n (fun j => Rabs (snd (f xs) i j)) + L * r).
    assert (H0 : 0 <= rsum n (fun j => Rabs (snd (f xs) i j))) by (apply rsum_nonneg; intros; apply Rabs_pos).
    split; [assumption|]. split; [assumption|]. split; [nra|]. intros x Hx. destruct (HS x Hx) as (S1 & S2).
    pose proof (Dpos n xs x) as Hd.
    assert (Diff : forall v, Rabs (mat_vec n (snd (f x)) v i - mat_vec n (snd (f xs)) v i) <= L * D x * supnorm n v).
    { intros v. eapply Rle_trans; [|apply S1]. exact (supnorm_ge n (fun i => mat_vec n (snd (f x)) v i - mat_vec n (snd (f xs)) v i) i Hi). }
    split; [|split].
    - intros v. rewrite Rabs_Ropp. specialize (Diff v). pose proof (row_bound (snd (f xs)) v i) as Rb. pose proof (supnorm_nonneg n v) as Hv.
      replace (mat_vec n (snd (f x)) v i) with ((mat_vec n (snd (f x)) v i - mat_vec n (snd (f xs)) v i) + mat_vec n (snd (f xs)) v i) by ring.
      eapply Rle_trans; [apply Rabs_triang|].
      assert (L * D x * supnorm n v <= L * r * supnorm n v).
      { apply Rmult_le_compat_r; [assumption|]. apply Rmult_le_compat_l; assumption. }
      lra.
    - intros v. specialize (Diff v).
      replace (- mat_vec n (snd (f x)) v i - - mat_vec n (snd (f xs)) v i) with (- (mat_vec n (snd (f x)) v i - mat_vec n (snd (f xs)) v i)) by ring.
      rewrite Rabs_Ropp. exact Diff.
    - pose proof (supnorm_ge n (fun i => fst (f x) i - (fst (f xs) i + mat_vec n (snd (f x)) (fun j => x j - xs j) i)) i Hi) as Q.
      cbv beta in Q. unfold dist at 1 in S2. 
      match goal with |- Rabs ?e <= _ => replace e with (- (fst (f x) i - (fst (f xs) i + mat_vec n (snd (f x)) (fun j => x j - xs j) i))) by ring end.
      rewrite Rabs_Ropp. lra.
  Qed.

  Lemma nice_H : forall i, (i < n)%nat -> nice n xs (fun x => fst (H x) i) (fun x v => mat_vec n (snd (H x)) v i).
  Proof.
    intros i Hi.
    destruct (nice_entry n xs i Hi (a i) (b i) (fun x => - fst (f x) i) (fun x v => - mat_vec n (snd (f x)) v i) (nice_system i Hi) (coefs_xs i Hi))
      as (q & Q & r & Hq & Hr & Hx).
    apply (nice_ext n xs q Q _ _ r Hr); [|exact Hq]. intros x Dx. destruct (Hx x Dx) as (E1 & ff & xx & E2 & E3).
    split; [rewrite H_value, E1; reflexivity|]. intros v. rewrite E3. symmetry. apply H_row; assumption.
  Qed.

  Lemma nice_all : forall m, (m <= n)%nat -> exists r L B, 0 < r /\ 0 <= L /\ 0 <= B /\
    forall i, (i < m)%nat -> nice_on n xs r L B (fun x => fst (H x) i) (fun x v => mat_vec n (snd (H x)) v i).
  Proof.
    induction m as [|m IH]; intros Hm.
    - exists 1, 0, 0. repeat split; try lra; intros; lia.
    - destruct (IH ltac:(lia)) as (r & L & B & Hr & HL & HB & HA).
      destruct (nice_H m ltac:(lia)) as (r' & L' & B' & Hr' & HL' & HB' & HA').
      exists (Rmin r r'), (Rmax L L'), (Rmax B B').
      pose proof (Rmin_l r r'). pose proof (Rmin_r r r'). pose proof (Rmax_l L L'). pose proof (Rmax_r L L').
      pose proof (Rmax_l B B'). pose proof (Rmax_r B B').
      split; [apply Rmin_glb_lt; assumption|]. split; [lra|]. split; [lra|]. intros i Hi.
      destruct (Nat.eq_dec i m) as [->|Hne].
      + apply (nice_on_mono n xs r' L' B'); assumption.
      + apply (nice_on_mono n xs r L B); try assumption. apply HA. lia.
  Qed.

  Lemma H_root : forall i, (i < n)%nat -> fst (H xs) i = 0.
  Proof.
    intros i Hi. rewrite H_value.
    assert (E : fcmp_value JSerial (a i) (b i) (xs i) (fst (f xs) i) = Some 0).
    { apply fcmp_zero_iff; [discriminate| | | |apply strict_is_solution; apply Hstrict; assumption].
      - intros E. pose proof (Hstrict i Hi) as S. rewrite E in S. cbn in S. unfold strict_solution, inside in S. cbn in S.
        destruct S as [((X & _) & _)|[(X & _)|(_ & X & _)]]; [exact X|discriminate X|exact X].
      - intros E. pose proof (Hstrict i Hi) as S. rewrite E in S. cbn in S. unfold strict_solution, inside in S. cbn in S.
        destruct S as [((_ & X) & _)|[(_ & X & _)|(X & _)]]; [exact X|exact X|discriminate X].
      - destruct (Hstrict i Hi) as [((X & Y) & _)|[(X & Y & _)|(X & Y & _)]].
        + destruct (la i), (ub i); cbn in *; try tauto; lra.
        + rewrite X. destruct (ub i); cbn in *; try tauto; lra.
        + rewrite X. destruct (la i); cbn in *; try tauto; lra. }
    unfold fcmp_value, ncp_smooth_value in E. rewrite E. reflexivity.
  Qed.

  Lemma ncp_regular : exists r K L M, 0 < r /\ 0 < K /\ 0 <= L /\ 0 <= M /\ K * L * r * (1 + K * M) < 1 /\
    forall r', 0 < r' -> r' <= r -> regular_root n H xs r' K L M.
  Proof.
    destruct (inverse_bound n (snd (H xs)) H_regular) as (K0 & HK0 & Inv).
    destruct (nice_all n (Nat.le_refl n)) as (r0 & L & B & Hr0 & HL & HB & HA).
    set (K := 2 * K0). set (M := B + L).
    assert (HM : 0 <= M) by (unfold M; lra).
    set (c := K * (L + 1) * (1 + K * M) + 2 * K0 * L + 1).
    assert (HK : 0 < K) by (unfold K; lra).
    assert (Hc1 : 0 < K * (L + 1) * (1 + K * M)).
    { apply Rmult_lt_0_compat; [apply Rmult_lt_0_compat; lra|]. assert (0 <= K * M) by (apply Rmult_le_pos; lra). lra. }
    assert (Hc2 : 0 <= 2 * K0 * L) by (apply Rmult_le_pos; lra).
    assert (Hc : 1 <= c) by (unfold c; lra).
    set (r := Rmin r0 (/ (2 * c))).
    assert (Hic : 0 < / (2 * c)) by (apply Rinv_0_lt_compat; lra).
    assert (Hr : 0 < r) by (apply Rmin_glb_lt; assumption).
    assert (Hrc : c * r <= / 2).
    { apply Rle_trans with (c * / (2 * c)); [apply Rmult_le_compat_l; [lra|apply Rmin_r]|]. right. field. lra. }
    assert (Hr0' : r <= r0) by apply Rmin_l. clearbody r.
    assert (Hr1 : r <= 1) by nra.
    exists r, K, L, M. split; [assumption|]. split; [assumption|]. split; [assumption|]. split; [assumption|].
    assert (HLr : 2 * K0 * L * r <= / 2).
    { apply Rle_trans with (c * r); [|assumption]. apply Rmult_le_compat_r; [lra|]. unfold c. lra. }
    split.
    - apply Rle_lt_trans with (c * r); [|lra]. replace (K * L * r * (1 + K * M)) with ((K * L * (1 + K * M)) * r) by ring.
      apply Rmult_le_compat_r; [lra|]. unfold c. assert (0 <= K * (1 + K * M)).
      { apply Rmult_le_pos; [lra|]. assert (0 <= K * M) by (apply Rmult_le_pos; lra). lra. }
      replace (K * (L + 1) * (1 + K * M)) with (K * L * (1 + K * M) + K * (1 + K * M)) by ring. lra.
    - intros r' Hr' Hrr x Hx. pose proof (Dpos n xs x) as Hd. split; [|split].
      + apply supnorm_le; [apply Rmult_le_pos; assumption|]. intros i Hi.
        pose proof (nice_on_mono n xs r0 L B r L B _ _ HL Hr0' (Rle_refl L) (Rle_refl B) (HA i Hi)) as Hnr.
        pose proof (nice_on_cont n xs r L B _ _ HL Hnr x ltac:(lra)) as Q. cbv beta in Q.
        rewrite (H_root i Hi), Rminus_0_r in Q. eapply Rle_trans; [apply Q|]. apply Rmult_le_compat_r; [assumption|]. unfold M. nra.
      + intros v. pose proof (supnorm_nonneg n v) as Hv.
        assert (Q : supnorm n (mat_vec n (snd (H xs)) v) <= supnorm n (mat_vec n (snd (H x)) v) + L * r * supnorm n v).
        { apply supnorm_le.
          - pose proof (supnorm_nonneg n (mat_vec n (snd (H x)) v)). assert (0 <= L * r * supnorm n v) by (repeat apply Rmult_le_pos; lra). lra.
          - intros i Hi. destruct (HA i Hi x ltac:(lra)) as (_ & N2 & _). specialize (N2 v). cbv beta in N2.
            replace (mat_vec n (snd (H xs)) v i) with (mat_vec n (snd (H x)) v i + - (mat_vec n (snd (H x)) v i - mat_vec n (snd (H xs)) v i)) by ring.
            eapply Rle_trans; [apply Rabs_triang|]. rewrite Rabs_Ropp.
            pose proof (supnorm_ge n (mat_vec n (snd (H x)) v) i Hi).
            assert (L * D x * supnorm n v <= L * r * supnorm n v).
            { apply Rmult_le_compat_r; [assumption|]. apply Rmult_le_compat_l; [assumption|lra]. }
            lra. }
        pose proof (Inv v) as Q2.
        assert (Q3 : supnorm n v <= K0 * supnorm n (mat_vec n (snd (H x)) v) + K0 * L * r * supnorm n v).
        { eapply Rle_trans; [apply Q2|].
          replace (K0 * supnorm n (mat_vec n (snd (H x)) v) + K0 * L * r * supnorm n v) with
            (K0 * (supnorm n (mat_vec n (snd (H x)) v) + L * r * supnorm n v)) by ring.
          apply Rmult_le_compat_l; lra. }
        assert (Q4 : K0 * L * r * supnorm n v <= / 2 * supnorm n v) by (apply Rmult_le_compat_r; [assumption|lra]).
        unfold K. lra.
      + apply supnorm_le; [apply Rmult_le_pos; [assumption|apply pow2_ge_0]|]. intros i Hi.
        destruct (HA i Hi x ltac:(lra)) as (_ & _ & N3). cbv beta in N3. rewrite (H_root i Hi), Rminus_0_r in N3. exact N3.
  Qed.
End Main.

Theorem ncpsolve_converges : forall nan n jt f solve a b xs,
  (0 < n)%nat -> jt <> JFull -> exact_solver solve -> complete_solver solve ->
  smooth_system n f xs ->
  (forall i, (i < n)%nat -> strict_solution (lower_cut BIG (a i)) (upper_cut BIG (b i)) (xs i) (fst (f xs) i)) ->
  regular_inside n (fun i => lower_cut BIG (a i)) (fun i => upper_cut BIG (b i)) xs (snd (f xs)) ->
  exists r C M, 0 < r /\ 0 <= C /\ C * r < 1 /\ 0 <= M /\
    forall tol maxit x0, 0 < tol -> dist n x0 xs <= r ->
    let e0 := dist n x0 xs in
    let bound k := e0 * (C * e0) ^ (2 ^ k - 1) in
    exists x it ok, ncpsolve nan n jt f (solve n) a b tol maxit x0 = Ok (x, it, ok) /\ (it <= maxit)%nat /\
      dist n x xs <= bound it /\
      (forall k, (k < maxit)%nat -> M * bound k < tol -> ok = true /\ (it <= k)%nat).
Proof.
  intros nan n jt f solve a b xs Hn Hjt Hs1 Hs2 Hsm Hst Hreg.
  destruct (ncp_regular nan n jt f a b xs Hn Hjt Hsm Hst Hreg) as (r & K & L & M & Hr & HK & HL & HM & Hq & HR).
  exists r, (K * L), M. split; [assumption|]. split; [apply Rmult_le_pos; lra|]. split.
  { assert (0 <= K * M) by (apply Rmult_le_pos; lra). assert (0 <= K * L * r) by (repeat apply Rmult_le_pos; lra). nra. }
  split; [assumption|]. intros tol maxit x0 Ht Hx e0 bound. unfold ncpsolve.
  destruct (newton_converges n (ncp_fcmp nan jt a b f) solve xs r K L M tol maxit x0 Hn Hs1 Hs2 (HR r Hr (Rle_refl r)) HK HL HM Ht Hq Hx)
    as (x & it & ok & E & A & B & _ & Cv).
  exists x, it, ok. split; [exact E|]. split; [exact A|]. split; [exact B|exact Cv].
Qed.

Theorem ncpsolve_stops : forall nan n jt f solve a b xs,
  (0 < n)%nat -> jt <> JFull -> exact_solver solve -> complete_solver solve ->
  smooth_system n f xs ->
  (forall i, (i < n)%nat -> strict_solution (lower_cut BIG (a i)) (upper_cut BIG (b i)) (xs i) (fst (f xs) i)) ->
  regular_inside n (fun i => lower_cut BIG (a i)) (fun i => upper_cut BIG (b i)) xs (snd (f xs)) ->
  exists r, 0 < r /\ forall tol, 0 < tol -> exists k, forall maxit x0, (k < maxit)%nat -> dist n x0 xs <= r ->
    exists x it, ncpsolve nan n jt f (solve n) a b tol maxit x0 = Ok (x, it, true) /\ (it <= k)%nat /\ dist n x xs <= r /\
      forall i, (i < n)%nat -> mcp_approx (3 * tol) (lower_cut BIG (a i)) (upper_cut BIG (b i)) (x i) (fst (f x) i).
Proof.
  intros nan n jt f solve a b xs Hn Hjt Hs1 Hs2 Hsm Hst Hreg.
  destruct (ncpsolve_converges nan n jt f solve a b xs Hn Hjt Hs1 Hs2 Hsm Hst Hreg) as (r & C & M & Hr & HC & HCr & HM & Hrun).
  exists r. split; [assumption|]. intros tol Ht.
  assert (HCr0 : 0 <= C * r) by (apply Rmult_le_pos; lra).
  assert (Habs : Rabs (C * r) < 1) by (rewrite Rabs_pos_eq; assumption).
  assert (Hmr : 0 <= M * r) by (apply Rmult_le_pos; lra).
  destruct (pow_lt_1_zero (C * r) Habs (tol / (M * r + 1)) ltac:(apply Rdiv_lt_0_compat; lra)) as (k & Hk).
  exists k. intros maxit x0 Hmk Hx.
  assert (Hbounds : forall m e, 0 <= e -> e <= r -> e * (C * e) ^ m <= r * (C * r) ^ m).
  { intros m e He Her. apply Rmult_le_compat; [assumption| |assumption|].
    - apply pow_le. apply Rmult_le_pos; assumption.
    - apply pow_incr. split; [apply Rmult_le_pos; assumption|apply Rmult_le_compat_l; assumption]. }
  pose proof (dist_nonneg n x0 xs) as He0.
  destruct (Hrun tol maxit x0 Ht Hx) as (x & it & ok & E & Hit & Hd & Hconv). cbv zeta in Hd, Hconv.
  destruct (Hconv k Hmk) as (-> & Hik).
  { assert (Hpow : (k <= 2 ^ k - 1)%nat) by (pose proof (Nat.pow_gt_lin_r 2 k ltac:(lia)); lia).
    specialize (Hk (2 ^ k - 1)%nat Hpow).
    specialize (Hbounds (2 ^ k - 1)%nat (dist n x0 xs) He0 Hx).
    assert (Hq0 : 0 <= (C * r) ^ (2 ^ k - 1)) by (apply pow_le; assumption).
    rewrite Rabs_pos_eq in Hk by assumption.
    set (q := (C * r) ^ (2 ^ k - 1)) in *. clearbody q.
    assert (Hq : (M * r + 1) * q < tol).
    { apply (Rmult_lt_compat_l (M * r + 1)) in Hk; [|lra]. replace ((M * r + 1) * (tol / (M * r + 1))) with tol in Hk by (field; lra). exact Hk. }
    apply Rle_lt_trans with (M * (r * q)); [apply Rmult_le_compat_l; assumption|]. nra. }
  exists x, it. split; [exact E|]. split; [exact Hik|]. split.
  { eapply Rle_trans; [apply Hd|]. eapply Rle_trans; [apply Hbounds; assumption|].
    assert (Hone : (C * r) ^ (2 ^ it - 1) <= 1) by (rewrite <- (pow1 (2 ^ it - 1)); apply pow_incr; lra).
    apply (Rmult_le_compat_l r) in Hone; lra. }
  assert (Hb : forall i, (i < n)%nat -> a i <> PInf /\ b i <> MInf /\ ext_le (lower_cut BIG (a i)) (upper_cut BIG (b i))).
  { intros i Hi. pose proof (Hst i Hi) as S. unfold strict_solution, inside in S. split; [|split].
    - intros Ea. rewrite Ea in S. cbn in S. destruct S as [((X & _) & _)|[(X & _)|(_ & X & _)]]; [exact X|discriminate X|exact X].
    - intros Ea. rewrite Ea in S. cbn in S. destruct S as [((_ & X) & _)|[(_ & X & _)|(X & _)]]; [exact X|exact X|discriminate X].
    - destruct S as [((X & Y) & _)|[(X & Y & _)|(X & Y & _)]].
      + destruct (lower_cut BIG (a i)), (upper_cut BIG (b i)); cbn in *; try tauto; lra.
      + rewrite X. destruct (upper_cut BIG (b i)); cbn in *; try tauto; lra.
      + rewrite X. destruct (lower_cut BIG (a i)); cbn in *; try tauto; lra. }
  destruct (ncpsolve_final nan n jt f (solve n) a b tol maxit x0 x it true Hn Hjt Hb E) as (_ & F).
  apply F. lia.
Qed.

(** Two unknowns: x0 + x1 - 1/2 with bounds [0, 1], and x1 + 1 with the lower bound 0; the solution is (1/2, 0). *)
Definition two_unknowns (x : nat -> R) : (nat -> R) * (nat -> nat -> R) :=
  (fun i => match i with O => x 0%nat + x 1%nat - / 2 | _ => x 1%nat + 1 end,
   fun i j => match i, j with O, _ => 1 | _, O => 0 | _, _ => 1 end).
Definition two_lower (i : nat) : ext := Fin 0.
Definition two_upper (i : nat) : ext := match i with O => Fin 1 | _ => PInf end.
Definition two_solution (i : nat) : R := match i with O => / 2 | _ => 0 end.

Lemma two_cuts : (forall i, lower_cut BIG (two_lower i) = Fin 0) /\ forall i, upper_cut BIG (two_upper i) = two_upper i.
Proof.
  unfold lower_cut, upper_cut, two_lower, two_upper, BIG. split; intros i.
  - cbn. destruct (Rle_dec 0 _) as [Hl|Hl]; [lra|reflexivity].
  - destruct i; cbn; [destruct (Rle_dec _ 1) as [Hl|Hl]; [lra|reflexivity]|reflexivity].
Qed.

Lemma two_case : smooth_system 2 two_unknowns two_solution /\
  (forall i, (i < 2)%nat -> strict_solution (lower_cut BIG (two_lower i)) (upper_cut BIG (two_upper i)) (two_solution i) (fst (two_unknowns two_solution) i)) /\
  regular_inside 2 (fun i => lower_cut BIG (two_lower i)) (fun i => upper_cut BIG (two_upper i)) two_solution (snd (two_unknowns two_solution)).
Proof.
  destruct two_cuts as (Ca & Cb). split; [|split].
  - exists 1, 0. split; [lra|]. split; [lra|]. intros x _. split.
    + intros v. right. rewrite !Rmult_0_l. apply supnorm_zero_iff. intros i _. apply Rminus_eq_0.
    + right. rewrite Rmult_0_l. apply supnorm_zero_iff. intros i Hi. unfold mat_vec, two_unknowns, two_solution. cbn.
      destruct i as [|[|i]]; cbn; [lra|lra|lia].
  - intros i Hi. rewrite Ca, Cb. destruct i as [|[|i]]; [left|right; left|lia]; cbn.
    + unfold inside; cbn. repeat split; lra.
    + repeat split; try lra.
  - intros v H1 H2 i Hi.
    assert (E1 : v 1%nat = 0).
    { apply H1; [lia|]. rewrite Ca. intros (X & _). cbn in X. lra. }
    assert (E0 : v 0%nat = 0).
    { specialize (H2 0%nat ltac:(lia)). unfold mat_vec in H2. cbn in H2. rewrite E1 in H2. 
      assert (I : inside (lower_cut BIG (two_lower 0)) (upper_cut BIG (two_upper 0)) (/ 2)).
      { rewrite Ca, Cb. split; cbn; lra. }
      specialize (H2 I). lra. }
    destruct i as [|[|i]]; [exact E0|exact E1|lia].
Qed.
