(** How far value iteration stops from the optimum. *)
From Coq Require Import String Reals List Arith Bool Lia Lra.
From Verif.Base Require Import Prelude Arrays Norms Sums Ext.
From Verif.Spec Require Import Euler Bellman Convergence.
From Verif.Model Require Import Processes DecisionRule TimeIteration ImprovedTimeIteration ValueIteration.
From Verif.Spec Require Import ValueIteration.
From Verif.Proofs Require Import TimeIterationProofs ImprovedTimeIterationProofs ValueIterationProofs.
Import ListNotations.
Open Scope R_scope.

Lemma expect_close : forall n w a b e, probability n w -> (forall j, (j < n)%nat -> Rabs (a j - b j) <= e) ->
  Rabs (rsum n (fun j => w j * a j) - rsum n (fun j => w j * b j)) <= e.
Proof.
  intros n w a b e (Hp & H1) H.
  replace (rsum n (fun j => w j * a j) - rsum n (fun j => w j * b j)) with (rsum n (fun j => w j * (a j - b j))).
  2:{ rewrite (rsum_ext _ _ (fun j => w j * a j + (-1) * (w j * b j))) by (intros; ring). rewrite rsum_plus, rsum_scal. ring. }
  eapply Rle_trans; [apply rsum_abs|].
  replace e with (rsum n (fun j => w j * e)) by (rewrite rsum_scal_r, H1; ring).
  apply rsum_le. intros j Hj. rewrite Rabs_mult, (Rabs_pos_eq (w j)) by (apply Hp, Hj).
  apply Rmult_le_compat_l; [apply Hp, Hj|apply H, Hj].
Qed.

Section VI.
  Variable g : list R -> list R -> list R -> list R -> list R.
  Variable u : list R -> list R -> list R -> R.
  Variable exo : dexo.
  Variable s : list (list R).
  Variable n_x : nat.
  Variables beta K : R.
  Variable W : tensor -> list R -> list R -> R.
  Notation N := (length s).
  Notation wi := (within (ex_n exo) N 1).
  Notation J := (objective_at g u beta exo s W).
  Hypothesis Hb : 0 <= beta.
  Hypothesis HK : beta * K < 1.
  Hypothesis HL : value_rule_lipschitz exo N W K.
  Hypothesis Hw : forall i, (i < ex_n exo)%nat -> probability (dp_n (ex_dp exo) i) (dp_weight (ex_dp exo) i).

  Lemma objective_close : forall v v' e i n y, 0 <= e -> wi v v' e -> (i < ex_n exo)%nat -> Rabs (J v i n y - J v' i n y) <= beta * K * e.
  Proof.
    intros v v' e i n y He H Hi. unfold objective_at, bellman.
    match goal with |- Rabs (?a + beta * ?p - (?a + beta * ?q)) <= _ => replace (a + beta * p - (a + beta * q)) with (beta * (p - q)) by ring end.
    rewrite Rabs_mult, (Rabs_pos_eq beta) by exact Hb. rewrite Rmult_assoc. apply Rmult_le_compat_l; [exact Hb|].
    apply expect_close; [apply Hw, Hi|]. intros j Hj. apply HL; assumption.
  Qed.

  (** [v], [w]: one application of a map that is close to the objective's optimum or to a policy. *)
  Lemma fixed_error : forall (w : tensor) (vals : nat -> nat -> R) (vs : tensor) err,
    (0 < ex_n exo * N * 1)%nat -> 0 <= err ->
    wi (fun i n _ => vals i n) w err ->
    (forall e, 0 <= e -> wi w vs e -> wi (fun i n _ => vals i n) vs (beta * K * e)) ->
    wi (fun i n _ => vals i n) vs (beta * K * err / (1 - beta * K)).
  Proof.
    intros w vals vs err Hs He H1 H2.
    pose proof (tnorm_distance (ex_n exo) N 1 w vs Hs) as (D1 & D2). set (e0 := tnorm _ _ _ _) in *.
    assert (P0 : 0 <= e0) by (destruct D2 as (i & n & k & _ & _ & _ & <-); apply Rabs_pos).
    pose proof (H2 e0 P0 D1) as H3.
    assert (Q : e0 <= err + beta * K * e0).
    { destruct D2 as (i & n & k & Hi & Hn & Hk & E).
      rewrite <- E at 1. replace (w i n k - vs i n k) with ((w i n k - vals i n) + (vals i n - vs i n k)) by ring.
      eapply Rle_trans; [apply Rabs_triang|]. apply Rplus_le_compat.
      - rewrite Rabs_minus_sym. apply (H1 i n k); assumption.
      - apply (H3 i n k); assumption. }
    assert (Q2 : e0 * (1 - beta * K) <= err) by lra.
    intros i n k Hi Hn Hk. eapply Rle_trans; [apply (H3 i n k); assumption|].
    destruct (Rle_lt_dec 0 (beta * K)) as [HP|HN].
    - apply (Rmult_le_reg_r (1 - beta * K)); [lra|]. unfold Rdiv. rewrite (Rmult_assoc _ (/ _)), Rinv_l by lra.
      rewrite Rmult_1_r, Rmult_assoc. apply Rmult_le_compat_l; [exact HP|exact Q2].
    - (* a negative product would bound an absolute value by a negative number: the distance is then 0 *)
      assert (e0 = 0).
      { destruct (Req_dec e0 0) as [|Hne]; [assumption|]. exfalso.
        pose proof (H3 i n k Hi Hn Hk) as A. pose proof (Rabs_pos (vals i n - vs i n k)).
        assert (beta * K * e0 < 0) by (rewrite <- (Rmult_0_l e0); apply Rmult_lt_compat_r; lra). lra. }
      assert (err = 0 \/ 0 < err) as [->|Hpos] by lra.
      + rewrite H. right. field. lra.
      + exfalso. pose proof (H2 1 ltac:(lra)) as A.
        assert (B : wi w vs 1) by (intros i1 n1 k1 I1 I2 I3; eapply Rle_trans; [apply D1; assumption|lra]).
        specialize (A B i n k Hi Hn Hk). pose proof (Rabs_pos (vals i n - vs i n k)). cbv beta in A. lra.
  Qed.
End VI.

Lemma max_close : forall (A B : list R -> R) box ma mb e,
  (exists y, in_box box y /\ ma = A y) -> (forall y, in_box box y -> A y <= ma) ->
  (exists y, in_box box y /\ mb = B y) -> (forall y, in_box box y -> B y <= mb) ->
  (forall y, Rabs (A y - B y) <= e) -> Rabs (ma - mb) <= e.
Proof.
  intros A B box ma mb e (ya & Ya & ->) HA (yb & Yb & ->) HB H.
  pose proof (HA yb Yb). pose proof (HB ya Ya). pose proof (H ya). pose proof (H yb).
  apply Rabs_le. revert H2 H3. unfold Rabs. destruct (Rcase_abs _), (Rcase_abs _); intros; lra.
Qed.

Theorem vi_optimal :
  forall g u val exo s n_x beta v0 lb ub interp_x interp_v call_v node_x node_v minimize W K,
    index_is_point exo call_v W ->
    0 <= beta -> beta * K < 1 -> value_rule_lipschitz exo (length s) W K ->
    (forall i, (i < ex_n exo)%nat -> probability (dp_n (ex_dp exo) i) (dp_weight (ex_dp exo) i)) ->
    (forall w i n, (i < ex_n exo)%nat -> (n < length s)%nat -> node_v w i n 0%nat = w i n 0%nat) ->
    maximises g u beta exo s W lb ub minimize ->
    (forall i n, (i < ex_n exo)%nat -> (n < length s)%nat ->
       length (lb (ex_node exo i) (nth n s [])) = n_x /\ length (ub (ex_node exo i) (nth n s [])) = n_x) ->
    forall tol maxit x0 r,
    value_iteration g u val exo s n_x beta v0 lb ub interp_x interp_v call_v node_x node_v minimize tol maxit x0 = Ok r ->
    forall i n, (i < ex_n exo)%nat -> (n < length s)%nat ->
      (forall vs, bellman_solution g u beta exo s W lb ub vs ->
         Rabs (vi_values r i n - vs i n 0%nat) <= beta * K * vi_v_err r / (1 - beta * K)) /\
      (forall vc, value_of_controls g u beta exo s n_x W (vi_controls r) vc ->
         Rabs (vi_values r i n - vc i n 0%nat) <= beta * K * vi_v_err r / (1 - beta * K)).
Proof.
  intros g u val exo s n_x beta v0 lb ub interp_x interp_v call_v node_x node_v minimize W K
    HI Hb HK HL Hw Hnode Hmax Hbox tol maxit x0 r E i n Hi Hn.
  destruct (value_iteration_bellman g u val exo s n_x beta v0 lb ub interp_x interp_v call_v node_x node_v minimize W HI tol maxit x0 r E)
    as (c0 & w & _ & Hv & _ & Hd & Hg). specialize (Hg Hmax Hbox).
  assert (Hs : (0 < ex_n exo * length s * 1)%nat) by nia.
  assert (He : 0 <= vi_v_err r) by (destruct Hd as (_ & i1 & n1 & k1 & _ & _ & _ & <-); apply Rabs_pos).
  assert (H1 : within (ex_n exo) (length s) 1 (fun i n _ => vi_values r i n) w (vi_v_err r)).
  { intros i1 n1 k1 I1 I2 I3. assert (k1 = 0%nat) as -> by lia. rewrite <- Hnode by assumption. apply (proj1 Hd i1 n1 0%nat); [assumption..|lia]. }
  split; intros v Hsol.
  - refine (fixed_error exo s beta K HK w (vi_values r) v (vi_v_err r) Hs He H1 _ i n 0%nat Hi Hn ltac:(lia)).
    intros e Pe Hwi i1 n1 k1 I1 I2 I3. assert (k1 = 0%nat) as -> by lia.
    destruct (Hg i1 n1 I1 I2) as (G1 & G2). destruct (Hsol i1 n1 I1 I2) as (S1 & S2).
    refine (max_close (objective_at g u beta exo s W w i1 n1) (objective_at g u beta exo s W v i1 n1) _ _ _ _ _ _ S1 S2 _).
    + exists (at_node n_x (vi_controls r) i1 n1). split; [exact G1|apply Hv; assumption].
    + intros y Hy. rewrite (Hv i1 n1 I1 I2). apply G2. exact Hy.
    + intros y. apply (objective_close g u exo s beta K W Hb HL Hw w v e i1 n1 y Pe Hwi I1).
  - refine (fixed_error exo s beta K HK w (vi_values r) v (vi_v_err r) Hs He H1 _ i n 0%nat Hi Hn ltac:(lia)).
    intros e Pe Hwi i1 n1 k1 I1 I2 I3. assert (k1 = 0%nat) as -> by lia.
    rewrite (Hv i1 n1 I1 I2), (Hsol i1 n1 I1 I2).
    apply (objective_close g u exo s beta K W Hb HL Hw w v e i1 n1 _ Pe Hwi I1).
Qed.

Theorem vi_policy :
  forall g u val exo s n_x beta v0 lb ub interp_x interp_v call_v node_x node_v minimize W K,
    index_is_point exo call_v W ->
    0 <= beta -> beta * K < 1 -> value_rule_lipschitz exo (length s) W K ->
    (forall i, (i < ex_n exo)%nat -> probability (dp_n (ex_dp exo) i) (dp_weight (ex_dp exo) i)) ->
    (forall w i n, (i < ex_n exo)%nat -> (n < length s)%nat -> node_v w i n 0%nat = w i n 0%nat) ->
    maximises g u beta exo s W lb ub minimize ->
    (forall i n, (i < ex_n exo)%nat -> (n < length s)%nat ->
       length (lb (ex_node exo i) (nth n s [])) = n_x /\ length (ub (ex_node exo i) (nth n s [])) = n_x) ->
    forall tol maxit x0 r,
    value_iteration g u val exo s n_x beta v0 lb ub interp_x interp_v call_v node_x node_v minimize tol maxit x0 = Ok r ->
    forall vs vc, bellman_solution g u beta exo s W lb ub vs -> value_of_controls g u beta exo s n_x W (vi_controls r) vc ->
    forall i n, (i < ex_n exo)%nat -> (n < length s)%nat ->
      Rabs (vc i n 0%nat - vs i n 0%nat) <= 2 * (beta * K * vi_v_err r / (1 - beta * K)).
Proof.
  intros g u val exo s n_x beta v0 lb ub interp_x interp_v call_v node_x node_v minimize W K
    HI Hb HK HL Hw Hnode Hmax Hbox tol maxit x0 r E vs vc Hvs Hvc i n Hi Hn.
  destruct (vi_optimal g u val exo s n_x beta v0 lb ub interp_x interp_v call_v node_x node_v minimize W K
    HI Hb HK HL Hw Hnode Hmax Hbox tol maxit x0 r E i n Hi Hn) as (A & B).
  specialize (A vs Hvs). specialize (B vc Hvc).
  replace (vc i n 0%nat - vs i n 0%nat) with ((vi_values r i n - vs i n 0%nat) - (vi_values r i n - vc i n 0%nat)) by ring.
  eapply Rle_trans; [apply Rabs_triang|]. rewrite Rabs_Ropp. lra.
Qed.

Theorem bellman_unique : forall g u exo s beta W K lb ub,
    0 <= beta -> beta * K < 1 -> value_rule_lipschitz exo (length s) W K ->
    (forall i, (i < ex_n exo)%nat -> probability (dp_n (ex_dp exo) i) (dp_weight (ex_dp exo) i)) ->
    forall v v', bellman_solution g u beta exo s W lb ub v -> bellman_solution g u beta exo s W lb ub v' ->
    forall i n, (i < ex_n exo)%nat -> (n < length s)%nat -> v i n 0%nat = v' i n 0%nat.
Proof.
  intros g u exo s beta W K lb ub Hb HK HL Hw v v' H H' i n Hi Hn.
  assert (Hs : (0 < ex_n exo * length s * 1)%nat) by nia.
  pose proof (tnorm_distance (ex_n exo) (length s) 1 v v' Hs) as (D1 & D2). set (e0 := tnorm _ _ _ _) in *.
  assert (P0 : 0 <= e0) by (destruct D2 as (i1 & n1 & k & _ & _ & _ & <-); apply Rabs_pos).
  assert (Q : e0 <= beta * K * e0).
  { destruct D2 as (i1 & n1 & k & I1 & I2 & I3 & <-). assert (k = 0%nat) as -> by lia.
    destruct (H i1 n1 I1 I2) as (S1 & S2). destruct (H' i1 n1 I1 I2) as (S1' & S2').
    refine (max_close _ _ _ _ _ _ S1 S2 S1' S2' _). intros y.
    refine (objective_close g u exo s beta K W Hb HL Hw v v' _ i1 n1 y _ _ I1); [apply Rabs_pos|].
    intros i2 n2 k2 I4 I5 I6. assert (k2 = 0%nat) as -> by lia.
    match goal with |- _ <= ?x => change x with (Rabs (v i1 n1 0%nat - v' i1 n1 0%nat)) end.
    apply (D1 i2 n2 0%nat); assumption. }
  assert (e0 = 0).
  { destruct P0 as [P|]; [|congruence]. exfalso. assert (e0 * (1 - beta * K) <= 0) by lra.
    assert (0 < e0 * (1 - beta * K)) by (apply Rmult_lt_0_compat; lra). lra. }
  pose proof (D1 i n 0%nat Hi Hn ltac:(lia)) as A. rewrite H0 in A. pose proof (Rabs_pos (v i n 0%nat - v' i n 0%nat)).
  assert (v i n 0%nat - v' i n 0%nat = 0); [|lra].
  destruct (Req_dec (v i n 0%nat - v' i n 0%nat) 0) as [|Hne]; [assumption|]. apply Rabs_pos_lt in Hne. lra.
Qed.
