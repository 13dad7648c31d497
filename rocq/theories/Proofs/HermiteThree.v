(** The rule of order three: the iterations converge, and the middle node is not zero. *)
From Coq Require Import Reals List Arith Lia Lra Psatz.
From Verif.Base Require Import Prelude Sums Arrays.
From Verif.Spec Require Import Law Quadrature.
From Verif.Model Require Import Discretization Grids Distributions.
From Verif.Proofs Require Import LawFinal NormalProofs HermiteRule.
Open Scope R_scope.

(** The Newton map of the code. *)
Definition herm_step (n : nat) (z : R) : R := z - fst (herm_rec n z) / (sqrt (2 * INR n) * snd (herm_rec n z)).

(** It contracts around a root: the iteration ends, at a point kept by the map. *)
Lemma newton_ends : forall n r delta (P : R -> Prop),
  (forall z, Rabs (z - r) <= delta -> P z -> sqrt (2 * INR n) * snd (herm_rec n z) <> 0 /\
     Rabs (herm_step n z - r) <= 1 / 3 * Rabs (z - r) /\ P (herm_step n z)) ->
  forall k fuel z, (k + 2 <= fuel)%nat -> Rabs (z - r) <= delta -> P z ->
    Rabs (z - r) * (4 / 3) < 1 / 10 ^ 14 * 3 ^ k ->
    exists z' pp, herm_newton fuel n z = Ok (z', pp) /\ Rabs (z' - r) < 1 / 10 ^ 14 /\ P z' /\ 0 < pp ^ 2.
Proof.
  intros n r delta P H. induction k as [|k IH]; intros fuel z Hf Hz Pz L.
  - destruct fuel as [|[|fuel]]; [lia|lia|]. destruct (H z Hz Pz) as (A & B & C).
    unfold herm_step in B, C. cbn [herm_newton]. destruct (herm_rec n z) as [p1 p2]. cbn [fst snd] in *.
    destruct (Req_EM_T (sqrt (2 * INR n) * p2) 0) as [E|E]; [contradiction|].
    set (z' := z - p1 / (sqrt (2 * INR n) * p2)) in *.
    pose proof (Rabs_triang (z' - r) (r - z)) as T. replace (z' - r + (r - z)) with (z' - z) in T by ring.
    rewrite (Rabs_minus_sym r z) in T. pose proof (Rabs_pos (z - r)).
    assert (S : Rabs (z' - z) < 1 / 10 ^ 14) by (rewrite pow_O in L; lra).
    destruct (Rlt_dec (Rabs (z' - z)) (1 / 10 ^ 14)) as [_|N]; [|contradiction].
    exists z', (sqrt (2 * INR n) * p2). split; [reflexivity|]. split; [rewrite pow_O in L; lra|]. split; [exact C|].
    rewrite <- Rsqr_pow2. apply Rlt_0_sqr. exact E.
  - destruct fuel as [|fuel]; [lia|]. destruct (H z Hz Pz) as (A & B & C).
    unfold herm_step in B, C. cbn [herm_newton]. destruct (herm_rec n z) as [p1 p2] eqn:ER. cbn [fst snd] in *.
    destruct (Req_EM_T (sqrt (2 * INR n) * p2) 0) as [E|E]; [contradiction|].
    set (z' := z - p1 / (sqrt (2 * INR n) * p2)) in *.
    pose proof (Rabs_pos (z - r)). pose proof (Rabs_pos (z' - r)).
    destruct (Rlt_dec (Rabs (z' - z)) (1 / 10 ^ 14)) as [S|N].
    + destruct fuel as [|fuel]; [lia|]. exists z', (sqrt (2 * INR n) * p2). split; [reflexivity|]. split; [|split; [exact C | rewrite <- Rsqr_pow2; apply Rlt_0_sqr; exact E]].
      pose proof (Rabs_triang (z - z') (z' - r)) as T. replace (z - z' + (z' - r)) with (z - r) in T by ring.
      rewrite (Rabs_minus_sym z z') in T. lra.
    + apply IH; [lia | lra | exact C |]. cbn [pow] in L. lra.
Qed.

(** Order three. *)
Lemma herm_rec_3 : forall z, exists c, 0 < c /\
  herm_rec 3 z = (sqrt (2 / 3) * c * (z ^ 3 - 3 / 2 * z), c * (z ^ 2 - 1 / 2)).
Proof.
  intros z. exists (sqrt 2 * (1 / Rpower PI (1 / 4))).
  assert (0 < sqrt 2) by (apply sqrt_lt_R0; lra).
  assert (Hq : 0 < Rpower PI (1 / 4)) by (unfold Rpower; apply exp_pos).
  split; [apply Rmult_lt_0_compat; [assumption|]; apply Rdiv_lt_0_compat; lra|].
  unfold herm_rec. cbn [for_range INR].
  replace (2 / (0 + 1)) with 2 by field. replace (2 / (1 + 1)) with 1 by field. replace (2 / (1 + 1 + 1)) with (2 / 3) by field.
  replace ((1 + 1) / (1 + 1 + 1)) with (2 / 3) by field. rewrite sqrt_1.
  assert (Eh : sqrt (1 / (1 + 1)) = sqrt 2 / 2).
  { replace (1 / (1 + 1)) with (/ 2) by field. rewrite sqrt_inv.
    rewrite <- (sqrt_sqrt 2) at 3 by lra. field. lra. }
  rewrite Eh. f_equal; field; lra.
Qed.

Lemma step_3 : forall z, z ^ 2 <> 1 / 2 ->
  sqrt (2 * INR 3) * snd (herm_rec 3 z) <> 0 /\ herm_step 3 z = 2 * z ^ 3 / (3 * z ^ 2 - 3 / 2).
Proof.
  intros z Hz. unfold herm_step. destruct (herm_rec_3 z) as (c & Hc & ->). cbn [fst snd].
  assert (E6 : sqrt (2 * INR 3) = 3 * sqrt (2 / 3)).
  { replace (2 * INR 3) with (3 * 3 * (2 / 3)) by (simpl; field).
    rewrite sqrt_mult by lra. rewrite sqrt_square by lra. reflexivity. }
  rewrite E6. assert (Hs : 0 < sqrt (2 / 3)) by (apply sqrt_lt_R0; lra).
  assert (D : z ^ 2 - 1 / 2 <> 0) by (intros K; apply Hz; lra). split.
  - repeat (apply Rmult_integral_contrapositive; split); try lra. 
  - field. repeat split; try lra; intros K; apply Hz; lra.
Qed.

(** The positive root. *)
Definition root3 : R := sqrt (3 / 2).
Lemma root3_sq : root3 * root3 = 3 / 2.
Proof. apply sqrt_sqrt. lra. Qed.
Lemma root3_bounds : 1224 / 1000 < root3 < 1225 / 1000.
Proof.
  pose proof root3_sq. assert (0 <= root3) by apply sqrt_pos. split; nra.
Qed.

Lemma contract_root : forall z, Rabs (z - root3) <= 1 / 10 -> True ->
  sqrt (2 * INR 3) * snd (herm_rec 3 z) <> 0 /\ Rabs (herm_step 3 z - root3) <= 1 / 3 * Rabs (z - root3) /\ True.
Proof.
  intros z H _. pose proof root3_bounds as B. pose proof root3_sq as Q.
  assert (Hz : 1124 / 1000 <= z <= 1325 / 1000) by (unfold Rabs in H; match type of H with context [Rcase_abs ?a] => destruct (Rcase_abs a) end; lra).
  assert (D : 0 < z ^ 2 - 1 / 2) by nra.
  destruct (step_3 z) as [A E]; [intros K; lra|]. split; [exact A|]. split; [|exact I]. rewrite E.
  replace (2 * z ^ 3 / (3 * z ^ 2 - 3 / 2) - root3) with ((z - root3) * ((z - root3) * (2 * z + root3) / (3 * z ^ 2 - root3 * root3))).
  2:{ rewrite Q. apply (Rmult_eq_reg_r (3 * z ^ 2 - 3 / 2)); [|lra]. field_simplify; [|lra|lra].
      replace (root3 ^ 3) with (root3 * (root3 * root3)) by ring. rewrite Q. field. }
  rewrite Rabs_mult, (Rmult_comm (1 / 3)). apply Rmult_le_compat_l; [apply Rabs_pos|]. rewrite Q.
  unfold Rdiv at 1. rewrite !Rabs_mult, Rabs_inv, (Rabs_pos_eq (2 * z + root3)), (Rabs_pos_eq (3 * z ^ 2 - 3 / 2)) by lra.
  apply (Rmult_le_reg_r (3 * z ^ 2 - 3 / 2)); [lra|]. rewrite Rmult_assoc, Rinv_l, Rmult_1_r by lra.
  pose proof (Rabs_pos (z - root3)). nra.
Qed.

Lemma contract_zero : forall z, Rabs (z - 0) <= 3 / 10 -> z <> 0 ->
  sqrt (2 * INR 3) * snd (herm_rec 3 z) <> 0 /\ Rabs (herm_step 3 z - 0) <= 1 / 3 * Rabs (z - 0) /\ herm_step 3 z <> 0.
Proof.
  intros z H N. rewrite Rminus_0_r in *.
  assert (Hz : - (3 / 10) <= z <= 3 / 10) by (unfold Rabs in H; match type of H with context [Rcase_abs ?a] => destruct (Rcase_abs a) end; lra).
  assert (D : 0 < 3 / 2 - 3 * z ^ 2) by nra.
  destruct (step_3 z) as [A E]; [intros K; lra|]. split; [exact A|]. rewrite E, Rminus_0_r.
  replace (2 * z ^ 3 / (3 * z ^ 2 - 3 / 2)) with (z * - (2 * z ^ 2 / (3 / 2 - 3 * z ^ 2))) by (field; lra). split.
  - rewrite Rabs_mult, (Rmult_comm (1 / 3)). apply Rmult_le_compat_l; [apply Rabs_pos|]. rewrite Rabs_Ropp.
    rewrite Rabs_pos_eq by (apply Rmult_le_pos; [nra | left; now apply Rinv_0_lt_compat]).
    apply (Rmult_le_reg_r (3 / 2 - 3 * z ^ 2)); [lra|]. unfold Rdiv at 1. rewrite Rmult_assoc, Rinv_l, Rmult_1_r by lra. nra.
  - apply Rmult_integral_contrapositive. split; [exact N|]. apply Ropp_neq_0_compat.
    apply Rmult_integral_contrapositive. split; [|apply Rinv_neq_0_compat; lra].
    apply Rmult_integral_contrapositive. split; [lra|]. now apply pow_nonzero.
Qed.

(** Powers in the starting values. *)
Lemma Rpower_root : forall a n, 0 < a -> (0 < n)%nat -> Rpower a (/ INR n) ^ n = a.
Proof.
  intros a n Ha Hn. rewrite <- Rpower_pow by (unfold Rpower; apply exp_pos). rewrite Rpower_mult, Rinv_l, Rpower_1; [reflexivity|exact Ha|].
  apply not_0_INR. lia.
Qed.

Lemma pow_lt_inv : forall n a b, 0 <= a -> 0 <= b -> a ^ n < b ^ n -> a < b.
Proof.
  intros n a b Ha Hb H. apply Rnot_le_lt. intros K. pose proof (pow_incr b a n (conj Hb K)). lra.
Qed.

Lemma first_start : Rabs (herm_start 3 0 0 (fun _ => 0) - root3) <= 1 / 10.
Proof.
  cbn [herm_start]. replace (2 * INR 3 + 1) with 7 by (simpl; ring).
  rewrite Rpower_Ropp. set (q := Rpower 7 (1 / 6)).
  assert (Hq : 0 < q) by (unfold q, Rpower; apply exp_pos).
  assert (E : q ^ 6 = 7).
  { unfold q. replace (1 / 6) with (/ INR 6) by (simpl; field). apply Rpower_root; [lra|lia]. }
  assert (L : 138 / 100 < q) by (apply (pow_lt_inv 6); [lra|lra|rewrite E; lra]).
  assert (U : q < 139 / 100) by (apply (pow_lt_inv 6); [lra|lra|rewrite E; lra]).
  assert (IL : / (139 / 100) < / q) by (apply Rinv_lt_contravar; nra).
  assert (IU : / q < / (138 / 100)) by (apply Rinv_lt_contravar; nra).
  assert (S : 2645 / 1000 < sqrt 7 < 2646 / 1000).
  { assert (Q : sqrt 7 * sqrt 7 = 7) by (apply sqrt_sqrt; lra). assert (0 <= sqrt 7) by apply sqrt_pos. split; nra. }
  pose proof root3_bounds. apply Rabs_le. lra.
Qed.

Lemma second_start : forall z x, Rabs (z - root3) < 1 / 10 ^ 14 ->
  Rabs (herm_start 3 1 z x - 0) <= 3 / 10 /\ herm_start 3 1 z x <> 0.
Proof.
  intros z x H. cbn [herm_start]. replace (INR 3) with 3 by (simpl; ring).
  set (q := Rpower 3 (426 / 1000)).
  assert (Hq : 0 < q) by (unfold q, Rpower; apply exp_pos).
  assert (L : 15 / 10 < q).
  { apply Rlt_trans with (Rpower 3 (/ INR 5 * 2)).
    - rewrite <- Rpower_mult. change 2 with (INR 2). rewrite Rpower_pow by (unfold Rpower; apply exp_pos).
      assert (0 < Rpower 3 (/ INR 5)) by (unfold Rpower; apply exp_pos).
      apply (pow_lt_inv 5); [lra | nra|]. rewrite <- pow_mult, Nat.mul_comm, pow_mult, Rpower_root by (lra || lia). lra.
    - apply Rpower_lt; [lra|]. simpl. lra. }
  assert (U : q < 163 / 100).
  { apply Rlt_trans with (Rpower 3 (/ INR 7 * 3)).
    - apply Rpower_lt; [lra|]. simpl. lra.
    - rewrite <- Rpower_mult. replace 3 with (INR 3) at 2 by (simpl; ring). rewrite Rpower_pow by (unfold Rpower; apply exp_pos).
      assert (0 < Rpower 3 (/ INR 7)) by (unfold Rpower; apply exp_pos).
      apply (pow_lt_inv 7); [apply pow_le; lra | lra|]. rewrite <- pow_mult, Nat.mul_comm, pow_mult, Rpower_root by (lra || lia). lra. }
  pose proof root3_bounds as B.
  assert (T : 1 / 10 ^ 14 < 1 / 10000) by (apply Rmult_lt_compat_l; [lra|]; apply Rinv_lt_contravar; lra).
  assert (Hz : 12239 / 10000 < z < 12251 / 10000) by (unfold Rabs in H; match type of H with context [Rcase_abs ?a] => destruct (Rcase_abs a) end; lra).
  assert (V : 114 / 100 * q / z - z < 3 / 10).
  { apply (Rmult_lt_reg_r z); [lra|]. replace ((114 / 100 * q / z - z) * z) with (114 / 100 * q - z * z) by (field; lra). nra. }
  assert (W : 0 < 114 / 100 * q / z - z).
  { apply (Rmult_lt_reg_r z); [lra|]. replace ((114 / 100 * q / z - z) * z) with (114 / 100 * q - z * z) by (field; lra). nra. }
  split; [|lra]. apply Rabs_le. lra.
Qed.

Lemma hermgauss_3 : exists x w, hermgauss 3 = Ok (x, w) /\ x 0%nat = - x 2%nat /\ w 0%nat = w 2%nat /\
  Rabs (x 2%nat - sqrt (3 / 2)) < 1 / 10 ^ 14 /\ Rabs (x 1%nat) < 1 / 10 ^ 14 /\ x 1%nat <> 0 /\
  forall i, (i < 3)%nat -> 0 < w i.
Proof.
  assert (P14 : 0 < 1 / 10 ^ 14) by (apply Rdiv_lt_0_compat; [lra | apply pow_lt; lra]).
  unfold hermgauss. cbv zeta. change ((3 + 1) / 2)%nat with 2%nat.
  assert (E1 : exists z pp, herm_newton 100 3 (herm_start 3 0 0 (fun _ => 0)) = Ok (z, pp) /\
            Rabs (z - root3) < 1 / 10 ^ 14 /\ True /\ 0 < pp ^ 2).
  { apply (newton_ends 3 root3 (1 / 10) (fun _ => True) contract_root 31); [lia | exact first_start | exact I|].
    pose proof first_start. assert (15 / 100 < 1 / 10 ^ 14 * 3 ^ 31) by lra. lra. }
  destruct E1 as (z & pp & E1 & Z1 & _ & W1).
  set (x1 := upd (upd (fun _ : nat => 0) 2%nat z) 0%nat (- z)).
  destruct (second_start z x1 Z1) as [S1 S2].
  assert (E2 : exists y qq, herm_newton 100 3 (herm_start 3 1 z x1) = Ok (y, qq) /\
            Rabs (y - 0) < 1 / 10 ^ 14 /\ y <> 0 /\ 0 < qq ^ 2).
  { apply (newton_ends 3 0 (3 / 10) (fun y => y <> 0) contract_zero 32); [lia | exact S1 | exact S2|].
    assert (45 / 100 < 1 / 10 ^ 14 * 3 ^ 32) by lra. lra. }
  destruct E2 as (y & qq & E2 & Z2 & N2 & W2). rewrite Rminus_0_r in Z2.
  cbn [for_range_res bind]. rewrite E1. cbn [bind]. change (3 - 0 - 1)%nat with 2%nat. fold x1. rewrite E2. cbn [bind].
  eexists. eexists. split; [reflexivity|]. change (3 - 1 - 1)%nat with 1%nat. unfold upd, x1, upd. cbn [Nat.eqb].
  split; [reflexivity|]. split; [reflexivity|]. split; [exact Z1|]. split; [rewrite Rabs_Ropp; exact Z2|].
  split; [lra|]. intros [|[|[|i]]] Hi; try lia; cbn [Nat.eqb]; apply Rdiv_lt_0_compat; lra.
Qed.

(** Odd moments: only the middle node is left. *)
Lemma order_3_moments : exists x w, hermgauss 3 = Ok (x, w) /\ forall k,
  rsum 3 (fun i => w i * x i ^ (2 * k + 1)) <> 0.
Proof.
  destruct hermgauss_3 as (x & w & E & _ & _ & _ & _ & N & W). exists x, w. split; [exact E|]. intros k.
  pose proof (odd_moments_odd_order 1 x w k E) as M. change (2 * 1 + 1)%nat with 3%nat in M. rewrite M. apply Rmult_integral_contrapositive.
  split; [assert (W1 : 0 < w 1%nat) by (apply W; lia); lra | now apply pow_nonzero].
Qed.

(** The three nodes are those of the exact rule. *)
Lemma hermgauss_3_near : exists x w, hermgauss 3 = Ok (x, w) /\
    forall i j, (i < 3)%nat -> (j < 3)%nat -> i <> j -> 2 * (INR 3 + 1) / 10 ^ 14 <= Rabs (x i - x j).
Proof.
  destruct hermgauss_3 as (x & w & E & S & _ & Z & M & _). exists x, w. split; [exact E|].
  pose proof root3_bounds as B. fold root3 in Z.
  assert (T : 1 / 10 ^ 14 < 1 / 10000) by (apply Rmult_lt_compat_l; [lra|]; apply Rinv_lt_contravar; lra).
  assert (T2 : 2 * (INR 3 + 1) / 10 ^ 14 < 1 / 100) by (replace (INR 3) with 3 by (simpl; ring); lra).
  assert (A : 1 < x 2%nat) by (apply Rabs_def2 in Z; lra).
  assert (C : - (1 / 10) < x 1%nat < 1 / 10) by (apply Rabs_def2 in M; lra).
  intros i j Hi Hj N. apply Rle_trans with (1 / 100); [lra|].
  destruct i as [|[|[|i]]]; try lia; destruct j as [|[|[|j]]]; try lia;
    (match goal with |- _ <= Rabs ?d => destruct (Rcase_abs d); [rewrite Rabs_left by lra | rewrite Rabs_right by lra] end); lra.
Qed.
