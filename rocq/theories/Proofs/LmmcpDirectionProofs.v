(** The direction of lmmcp is a descent direction; the line search then never lets the merit grow. *)
From Coq Require Import Reals Arith Lia Lra FunctionalExtensionality.
From Verif.Base Require Import Prelude Sums Ext.
From Verif.Model Require Import Lmmcp LmmcpDirection.
From Verif.Spec Require Import LeastSquares LmmcpState Complementarity.
From Verif.Proofs Require Import LmmcpProofs LmmcpFinal.
Open Scope R_scope.

Lemma quadratic_flat : forall a b, (forall t, 0 <= t * a + t ^ 2 * b) -> a = 0.
Proof.
  intros a b H. destruct (Rle_dec b 0) as [L|L].
  - generalize (H 1) (H (-1)). intros. lra.
  - assert (b > 0) by lra. generalize (H (- a / (2 * b))). intros Q.
    replace (- a / (2 * b) * a + (- a / (2 * b)) ^ 2 * b) with (- (a ^ 2) / (4 * b)) in Q by (field; lra).
    assert (P : a ^ 2 = 0).
    { apply Rle_antisym; [|apply pow2_ge_0].
      assert (- (a ^ 2) / (4 * b) * (4 * b) = - (a ^ 2)) by (field; lra).
      assert (0 <= - (a ^ 2) / (4 * b) * (4 * b)) by (apply Rmult_le_pos; lra). lra. }
    destruct (Req_dec a 0) as [Z|Z]; [exact Z|]. exfalso. apply (pow_nonzero a 2 Z P).
Qed.

(** The residual of a least-squares solution is orthogonal to the image of any direction. *)
Lemma normal_equations : forall rows n A b d, least_squares rows n A b d -> forall e,
  rsum rows (fun r => (rsum n (fun j => A r j * d j) - b r) * rsum n (fun j => A r j * e j)) = 0.
Proof.
  intros rows n A b d H e.
  set (u := fun r => rsum n (fun j => A r j * d j) - b r). set (v := fun r => rsum n (fun j => A r j * e j)).
  change (rsum rows (fun r => u r * v r) = 0).
  cut (2 * rsum rows (fun r => u r * v r) = 0); [lra|].
  apply (quadratic_flat _ (rsum rows (fun r => v r ^ 2))). intros t.
  generalize (H (fun j => d j + t * e j)). unfold square_error.
  change (rsum rows (fun r => (rsum n (fun j => A r j * d j) - b r) ^ 2)) with (rsum rows (fun r => u r ^ 2)).
  rewrite (rsum_ext rows (fun r => (rsum n (fun j => A r j * (d j + t * e j)) - b r) ^ 2)
             (fun r => (u r ^ 2 + t * (2 * (u r * v r))) + t ^ 2 * v r ^ 2)).
  - rewrite rsum_plus, rsum_plus, !rsum_scal. lra.
  - intros r _. rewrite (rsum_ext n (fun j => A r j * (d j + t * e j)) (fun j => A r j * d j + t * (A r j * e j))) by (intros; ring).
    rewrite rsum_plus, rsum_scal. unfold u, v. ring.
Qed.

Section Descent.
  Variable n : nat.
  Variable ill : (nat -> nat -> R) -> bool.
  Variable lstsq : nat -> (nat -> nat -> R) -> (nat -> R) -> res (nat -> R).
  Hypothesis Hl : forall rows A b d, lstsq rows A b = Ok d -> least_squares rows n A b d.

  Lemma mu_pos : forall pre k J, 0 < lm_mu ill pre k J.
  Proof.
    intros pre k J. unfold lm_mu. assert (0 < INR (k + 1)) by (apply lt_0_INR; lia).
    destruct (ill J); [|apply Rinv_0_lt_compat, pow_lt; lra].
    destruct pre; (apply Rdiv_lt_0_compat; [lra|assumption]).
  Qed.

  Lemma direction_slope : forall pre k J phi d, lm_direction n ill lstsq pre k J phi = Ok d ->
    let mu := if Nat.ltb n 100 then lm_mu ill pre k J else 0 in
    rsum n (fun j => DPsi_of n J phi j * d j) =
      - (rsum (2 * n) (fun r => rsum n (fun j => J r j * d j) ^ 2) + mu * rsum n (fun j => d j ^ 2)).
  Proof.
    intros pre k J phi d H mu.
    assert (S : rsum n (fun j => DPsi_of n J phi j * d j) = rsum (2 * n) (fun r => phi r * rsum n (fun j => J r j * d j))).
    { unfold DPsi_of.
      rewrite (rsum_ext n _ (fun j => rsum (2 * n) (fun r => phi r * (J r j * d j)))).
      - rewrite rsum_swap. apply rsum_ext. intros r _. rewrite rsum_scal. reflexivity.
      - intros j _. rewrite <- rsum_scal_r. apply rsum_ext. intros; ring. }
    rewrite S. unfold mu. clear mu. unfold lm_direction in H. destruct (Nat.ltb n 100).
    - apply Hl in H. assert (N := normal_equations _ _ _ _ _ H d). clear H. cbn beta in N.
      rewrite rsum_split in N. set (mu := lm_mu ill pre k J) in *.
      assert (Pm : 0 <= mu) by (left; apply mu_pos).
      rewrite (rsum_ext (2 * n) _ (fun r => rsum n (fun j => J r j * d j) ^ 2 + phi r * rsum n (fun j => J r j * d j))) in N.
      2:{ intros r Hr. replace (Nat.ltb r (2 * n)) with true by (symmetry; apply Nat.ltb_lt, Hr). ring. }
      rewrite (rsum_ext n (fun i => (rsum n _ - _) * rsum n _) (fun i => mu * d i ^ 2)) in N.
      2:{ intros i Hi. replace (Nat.ltb (2 * n + i) (2 * n)) with false by (symmetry; apply Nat.ltb_ge; lia).
          replace (2 * n + i - 2 * n)%nat with i by lia.
          rewrite (rsum_single n i).
          - rewrite Nat.eqb_refl. rewrite Rmult_1_r, Rminus_0_r.
            transitivity ((sqrt mu * sqrt mu) * d i ^ 2); [ring|]. rewrite sqrt_sqrt by exact Pm. reflexivity.
          - exact Hi.
          - intros j _ Hj. destruct (Nat.eqb_spec i j); [subst; tauto|ring]. }
      rewrite rsum_plus, rsum_scal in N. lra.
    - destruct (lstsq (2 * n)%nat J phi) as [d0|e] eqn:E; [|discriminate H]. cbn [bind] in H. inversion H; subst; clear H.
      apply Hl in E. assert (N := normal_equations _ _ _ _ _ E d0). clear E.
      assert (Q : forall r, rsum n (fun j => J r j * - d0 j) = - rsum n (fun j => J r j * d0 j)).
      { intros r. rewrite <- rsum_opp. apply rsum_ext. intros; ring. }
      rewrite (rsum_ext (2 * n) (fun r => phi r * rsum n (fun j => J r j * - d0 j)) (fun r => - (phi r * rsum n (fun j => J r j * d0 j))))
        by (intros r _; rewrite Q; ring).
      rewrite (rsum_ext (2 * n) (fun r => rsum n (fun j => J r j * - d0 j) ^ 2) (fun r => rsum n (fun j => J r j * d0 j) ^ 2))
        by (intros r _; rewrite Q; ring).
      rewrite (rsum_ext (2 * n) _ (fun r => rsum n (fun j => J r j * d0 j) ^ 2 - phi r * rsum n (fun j => J r j * d0 j))) in N
        by (intros r _; ring).
      rewrite rsum_minus in N. rewrite rsum_opp. lra.
  Qed.
  Lemma direction_descent : forall pre k J phi d, lm_direction n ill lstsq pre k J phi = Ok d ->
    rsum n (fun j => DPsi_of n J phi j * d j) <= 0.
  Proof.
    intros pre k J phi d H. rewrite (direction_slope pre k J phi d H).
    assert (0 <= rsum (2 * n) (fun r => rsum n (fun j => J r j * d j) ^ 2)) by (apply rsum_nonneg; intros; apply pow2_ge_0).
    assert (0 <= rsum n (fun j => d j ^ 2)) by (apply rsum_nonneg; intros; apply pow2_ge_0).
    assert (0 <= if Nat.ltb n 100 then lm_mu ill pre k J else 0) by (destruct (Nat.ltb n 100); [left; apply mu_pos|lra]).
    assert (0 <= (if Nat.ltb n 100 then lm_mu ill pre k J else 0) * rsum n (fun j => d j ^ 2)) by (apply Rmult_le_pos; assumption).
    lra.
  Qed.
  (** Strictly, for fewer than 100 variables, as long as the direction is not zero. *)
  Lemma direction_strict : forall pre k J phi d, (n < 100)%nat -> lm_direction n ill lstsq pre k J phi = Ok d ->
    (exists j, (j < n)%nat /\ d j <> 0) -> rsum n (fun j => DPsi_of n J phi j * d j) < 0.
  Proof.
    intros pre k J phi d Hn H (j & Hj & Hd). rewrite (direction_slope pre k J phi d H).
    assert (0 <= rsum (2 * n) (fun r => rsum n (fun j => J r j * d j) ^ 2)) by (apply rsum_nonneg; intros; apply pow2_ge_0).
    replace (Nat.ltb n 100) with true by (symmetry; apply Nat.ltb_lt, Hn).
    assert (0 <= rsum n (fun j => d j ^ 2)) as [P|P] by (apply rsum_nonneg; intros; apply pow2_ge_0).
    - assert (0 < lm_mu ill pre k J * rsum n (fun j => d j ^ 2)) by (apply Rmult_lt_0_compat; [apply mu_pos|exact P]). lra.
    - exfalso. apply Hd. assert (Z := rsum_nonneg_0 n (fun j => d j ^ 2) (fun i _ => pow2_ge_0 (d i)) (eq_sym P) j Hj). cbn beta in Z.
      destruct (Req_dec (d j) 0) as [C|C]; [exact C|]. exfalso. apply (pow_nonzero (d j) 2 C Z).
  Qed.
End Descent.

(** The line search with this direction: the merit stays below the reference value, unless the search gave up. *)
Section Step.
  Variable nan : R.
  Variable o : lm_opts.
  Variable n : nat.
  Variable F : (nat -> R) -> nat -> R.
  Variable DF : (nat -> R) -> nat -> nat -> R.
  Variable lb ub : nat -> ext.
  Variable ill : (nat -> nat -> R) -> bool.
  Variable lstsq : nat -> (nat -> nat -> R) -> (nat -> R) -> res (nat -> R).
  Hypothesis Hl : forall rows A b d, lstsq rows A b = Ok d -> least_squares rows n A b d.
  Let step := main_step nan o n F DF lb ub (lm_direction n ill lstsq).

  Lemma step_descends : forall s s', consistent nan o n F DF lb ub s -> b_psi s <= m_max s -> step s = Ok s' ->
    m_psi s' <= m_max s \/
    (exists d t, lm_direction n ill lstsq false (m_k s) (m_dphi s) (m_phi s) = Ok d /\ 0 < t <= 1 / 1000000000000 /\
       m_x s' = fun i => m_x s i + t * d i).
  Proof.
    intros s s' C B H. assert (H0 := H).
    apply lmmcp_step in H. destruct H as (d & k & Ed & Q). cbn zeta in Q. destruct Q as (Q1 & Q2 & _).
    destruct (consistent_step _ _ _ _ _ _ _ _ _ _ C H0) as (C' & _).
    destruct C' as (P1 & P2 & _). rewrite P2, P1. destruct C as (C1 & C2 & C3 & C4 & C5 & C6 & _).
    assert (S : rsum n (fun j => m_dpsi s j * d j) <= 0) by (rewrite C4; eapply direction_descent; eassumption).
    assert (T : 0 < (55 / 100) ^ k) by (apply pow_lt; lra).
    destruct Q1 as [Q1|(Q1 & _)].
    - destruct Q2 as [Q2|Q2].
      + left. rewrite Q1. eapply Rle_trans; [exact Q2|].
        assert (0 <= - rsum n (fun j => m_dpsi s j * d j) * (55 / 100) ^ k) by (apply Rmult_le_pos; lra). lra.
      + right. exists d, ((55 / 100) ^ k). auto.
    - left. rewrite Q1, <- C5, <- C6. exact B.
  Qed.
End Step.

(** A least-squares routine for one unknown. *)
Definition lstsq_one (rows : nat) (A : nat -> nat -> R) (b : nat -> R) : res (nat -> R) :=
  Ok (fun _ => let s := rsum rows (fun r => A r 0%nat ^ 2) in
               if Req_EM_T s 0 then 0 else rsum rows (fun r => A r 0%nat * b r) / s).
Lemma lstsq_one_ok : forall rows A b d, lstsq_one rows A b = Ok d -> least_squares rows 1 A b d.
Proof.
  intros rows A b d H e. unfold lstsq_one in H.
  match type of H with Ok ?f = Ok d => assert (Ed : f = d) by (refine (f_equal (fun r => match r with Ok x => x | Err _ => d end) H)) end.
  subst d. clear H.
  assert (Q : forall x, square_error rows 1 A b x =
            rsum rows (fun r => A r 0%nat ^ 2) * x 0%nat ^ 2 - 2 * x 0%nat * rsum rows (fun r => A r 0%nat * b r) + rsum rows (fun r => b r ^ 2)).
  { intros x. unfold square_error.
    rewrite (rsum_ext rows _ (fun r => (x 0%nat ^ 2 * A r 0%nat ^ 2 - 2 * x 0%nat * (A r 0%nat * b r)) + b r ^ 2)) by (intros; cbn [rsum]; ring).
    rewrite rsum_plus, rsum_minus, !rsum_scal. ring. }
  rewrite !Q. set (s := rsum rows (fun r => A r 0%nat ^ 2)). set (p := rsum rows (fun r => A r 0%nat * b r)).
  assert (S0 : 0 <= s) by (apply rsum_nonneg; intros; apply pow2_ge_0).
  cbn zeta. destruct (Req_EM_T s 0) as [E|E].
  - assert (p = 0).
    { apply rsum_0. intros i Hi. assert (Z := rsum_nonneg_0 rows (fun r => A r 0%nat ^ 2) (fun i _ => pow2_ge_0 _) E i Hi). cbn beta in Z.
      destruct (Req_dec (A i 0%nat) 0) as [C|C]; [rewrite C; ring|]. exfalso. apply (pow_nonzero _ 2 C Z). }
    rewrite E, H. rewrite !Rmult_0_l, !Rmult_0_r. lra.
  - assert (0 < s) by lra. assert (0 <= s * (e 0%nat - p / s) ^ 2) by (apply Rmult_le_pos; [lra|apply pow2_ge_0]).
    replace (s * e 0%nat ^ 2 - 2 * e 0%nat * p) with (s * (e 0%nat - p / s) ^ 2 - p ^ 2 / s) by (field; lra).
    replace (s * (p / s) ^ 2 - 2 * (p / s) * p) with (- (p ^ 2 / s)) by (field; lra).
    generalize dependent (s * (e 0%nat - p / s) ^ 2). generalize (p ^ 2 / s). intros; lra.
Qed.
