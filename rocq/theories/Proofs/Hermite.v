(** Hermite polynomials: Christoffel-Darboux, real roots, quadrature. *)
From Coq Require Import Reals List Arith Lia Lra.
From Verif.Base Require Import Prelude Sums.
From Verif.Spec Require Import LinearAlgebra Quadrature.
From Verif.Proofs Require Import MatrixAlgebra.
Open Scope R_scope.

Local Notation H := hermite.

Lemma H_0 : forall x, H 0 x = 1. Proof. reflexivity. Qed.
Lemma H_1 : forall x, H 1 x = 2 * x.
Proof. intros x. unfold hermite. simpl. ring. Qed.
Lemma H_SS : forall n x, H (S (S n)) x = 2 * x * H (S n) x - 2 * INR (S n) * H n x.
Proof. reflexivity. Qed.
Lemma H_rec : forall n x, (1 <= n)%nat -> H (S n) x = 2 * x * H n x - 2 * INR n * H (n - 1) x.
Proof.
  intros [|n] x Hn; [lia|]. replace (S n - 1)%nat with n by lia. apply H_SS.
Qed.

(** c_j = 2^j j! *)
Definition hc (j : nat) : R := 2 ^ j * INR (fact j).
Lemma hc_pos : forall j, 0 < hc j.
Proof. intros j. unfold hc. apply Rmult_lt_0_compat; [apply pow_lt; lra|apply INR_fact_lt_0]. Qed.
Lemma hc_S : forall j, hc (S j) = 2 * INR (S j) * hc j.
Proof. intros j. unfold hc. rewrite fact_simpl, mult_INR. cbn [pow]. ring. Qed.
Lemma hc_0 : hc 0 = 1. Proof. unfold hc. simpl. ring. Qed.

Definition hk (n : nat) (x y : R) : R := rsum n (fun j => H j x * H j y / hc j).

Lemma darboux : forall n x y,
    2 * hc n * (x - y) * hk (S n) x y = H (S n) x * H n y - H n x * H (S n) y.
Proof.
  induction n as [|n IH]; intros x y.
  - unfold hk. cbn [rsum]. rewrite !H_1, !H_0, hc_0. field.
  - unfold hk. cbn [rsum]. fold (rsum (S n) (fun j => H j x * H j y / hc j)).
    change (rsum n (fun j => H j x * H j y / hc j) + H n x * H n y / hc n) with (hk (S n) x y).
    rewrite hc_S.
    replace (2 * (2 * INR (S n) * hc n) * (x - y) * (hk (S n) x y + H (S n) x * H (S n) y / (2 * INR (S n) * hc n)))
      with (2 * INR (S n) * (2 * hc n * (x - y) * hk (S n) x y) + 2 * (x - y) * (H (S n) x * H (S n) y)).
    2:{ field. split; [apply Rgt_not_eq, hc_pos|apply not_0_INR; lia]. }
    rewrite IH. rewrite !H_SS. ring.
Qed.

Lemma confluent : forall n x,
    2 * hc n * hk (S n) x x = 2 * INR (S n) * H n x ^ 2 - 2 * INR n * H (n - 1) x * H (S n) x.
Proof.
  induction n as [|n IH]; intros x.
  - unfold hk. cbn [rsum]. rewrite !H_0, hc_0. simpl. field.
  - unfold hk. cbn [rsum].
    change (rsum n (fun j => H j x * H j x / hc j) + H n x * H n x / hc n) with (hk (S n) x x).
    rewrite hc_S.
    replace (2 * (2 * INR (S n) * hc n) * (hk (S n) x x + H (S n) x * H (S n) x / (2 * INR (S n) * hc n)))
      with (2 * INR (S n) * (2 * hc n * hk (S n) x x) + 2 * (H (S n) x * H (S n) x)).
    2:{ field. split; [apply Rgt_not_eq, hc_pos|apply not_0_INR; lia]. }
    rewrite IH. replace (S n - 1)%nat with n by lia. rewrite H_SS. rewrite !S_INR.
    destruct n as [|n].
    + rewrite H_1, H_0. simpl. ring.
    + replace (S n - 1)%nat with n by lia. rewrite (H_SS n). rewrite !S_INR. ring.
Qed.

Lemma hk_pos : forall n x, 1 <= hk (S n) x x.
Proof.
  induction n as [|n IH]; intros x.
  - unfold hk. cbn [rsum]. rewrite H_0, hc_0. lra.
  - unfold hk in *. cbn [rsum] in *. specialize (IH x).
    assert (0 <= H (S n) x * H (S n) x / hc (S n)).
    { apply Rmult_le_pos; [apply Rle_0_sqr|apply Rlt_le, Rinv_0_lt_compat, hc_pos]. }
    lra.
Qed.

(** At a root of H_(n+1): the sum of squares, and H_n is not zero. *)
Lemma at_root : forall n x, H (S n) x = 0 -> hc n * hk (S n) x x = INR (S n) * H n x ^ 2.
Proof. intros n x Hx. pose proof (confluent n x) as C. rewrite Hx in C. lra. Qed.

Lemma root_simple : forall n x, H (S n) x = 0 -> H n x <> 0.
Proof.
  intros n x Hx E. pose proof (at_root n x Hx) as C. rewrite E in C.
  pose proof (hk_pos n x). pose proof (hc_pos n). simpl in C. nra.
Qed.

(** ** Polynomials *)
(** [lead d a f]: f is a polynomial of degree d with leading coefficient a. *)
Fixpoint lead (d : nat) (a : R) (f : R -> R) : Prop :=
  match d with
  | O => forall x, f x = a
  | S d' => exists c q, lead d' a q /\ forall x, f x = c + x * q x
  end.

Lemma lead_ext : forall d a f g, (forall x, f x = g x) -> lead d a f -> lead d a g.
Proof.
  intros [|d] a f g E L; cbn [lead] in *.
  - intros x. rewrite <- E. apply L.
  - destruct L as (c & q & L & Q). exists c, q. split; [exact L|]. intros x. rewrite <- E. apply Q.
Qed.

Lemma lead_scal : forall d a f k, lead d a f -> lead d (k * a) (fun x => k * f x).
Proof.
  induction d as [|d IH]; intros a f k L; cbn [lead] in *.
  - intros x. rewrite L. reflexivity.
  - destruct L as (c & q & L & Q). exists (k * c), (fun x => k * q x).
    split; [apply IH, L|]. intros x. rewrite Q. ring.
Qed.

Lemma lead_add_lower : forall d e a b f g, lead (d + S e) a f -> lead d b g -> lead (d + S e) a (fun x => f x + g x).
Proof.
  induction d as [|d IH]; intros e a b f g Lf Lg; cbn [lead Nat.add] in *.
  - destruct Lf as (c & q & L & Q). exists (c + b), q. split; [exact L|].
    intros x. rewrite Q, Lg. ring.
  - destruct Lf as (c & q & L & Q), Lg as (c' & q' & L' & Q').
    exists (c + c'), (fun x => q x + q' x). split; [eapply IH; eassumption|].
    intros x. rewrite Q, Q'. ring.
Qed.

Lemma lead_mulx : forall d a f, lead d a f -> lead (S d) a (fun x => x * f x).
Proof. intros d a f L. cbn [lead]. exists 0, f. split; [exact L|]. intros x. ring. Qed.

Lemma H_lead : forall n, lead n (2 ^ n) (H n) /\ lead (S n) (2 ^ S n) (H (S n)).
Proof.
  induction n as [|n [L1 L2]].
  - split; [intros x; reflexivity|]. exists 0, (fun _ => 2). split; [intros x; simpl; ring|].
    intros x. rewrite H_1. ring.
  - split; [exact L2|].
    apply (lead_ext _ _ (fun x => 2 * (x * H (S n) x) + (- 2 * INR (S n)) * H n x)).
    + intros x. rewrite H_SS. ring.
    + assert (A : lead (S (S n)) (2 ^ S (S n)) (fun x => 2 * (x * H (S n) x))).
      { change (2 ^ S (S n)) with (2 * 2 ^ S n).
        apply (lead_scal (S (S n)) (2 ^ S n) (fun x => x * H (S n) x) 2), lead_mulx, L2. }
      pose proof (lead_scal n (2 ^ n) (H n) (- 2 * INR (S n)) L1) as B.
      replace (S (S n)) with (n + 2)%nat in * by lia.
      exact (lead_add_lower n 1 _ _ _ _ A B).
Qed.

Lemma lead_divide : forall d a f r, lead (S d) a f ->
    exists g, lead d a g /\ forall x, f x = f r + (x - r) * g x.
Proof.
  induction d as [|d IH]; intros a f r L.
  - destruct L as (c & q & L & Q). exists (fun _ => a). split; [intros x; reflexivity|].
    intros x. rewrite !Q, !L. ring.
  - destruct L as (c & q & L & Q). destruct (IH a q r L) as (g & G & E).
    exists (fun x => q r + x * g x). split.
    + exists (q r), g. split; [exact G|]. reflexivity.
    + intros x. rewrite !Q. rewrite (E x). ring.
Qed.

Fixpoint rprod (n : nat) (f : nat -> R) : R := match n with O => 1 | S k => rprod k f * f k end.

Lemma factor_roots : forall n a f x, lead n a f ->
    (forall i, (i < n)%nat -> f (x i) = 0) ->
    (forall i j, (i < n)%nat -> (j < n)%nat -> x i = x j -> i = j) ->
    forall z, f z = a * rprod n (fun i => z - x i).
Proof.
  induction n as [|n IH]; intros a f x L R0 D z.
  - cbn [lead rprod] in *. rewrite L. ring.
  - destruct (lead_divide n a f (x n) L) as (g & G & E).
    cbn [rprod]. rewrite E, (R0 n) by lia.
    rewrite (IH a g x G).
    + ring.
    + intros i Hi. pose proof (E (x i)) as Ei. rewrite (R0 i), (R0 n) in Ei by lia.
      assert (x i - x n <> 0).
      { intros Z. assert (i = n) by (apply D; try lia; lra). lia. }
      destruct (Rmult_integral (x i - x n) (g (x i)) ltac:(lra)); [contradiction|assumption].
    + intros i j Hi Hj. apply D; lia.
Qed.

Lemma H_factor : forall n x, hermite_nodes n x -> forall z, H n z = 2 ^ n * rprod n (fun i => z - x i).
Proof.
  intros n x (R0 & D). apply factor_roots; [apply H_lead|exact R0|exact D].
Qed.

(** ** Derivative *)
Lemma dpl_ext : forall (f g : R -> R) x l, (forall y, f y = g y) -> derivable_pt_lim f x l -> derivable_pt_lim g x l.
Proof.
  intros f g x l E L e He. destruct (L e He) as (d & Hd). exists d. intros h Hh0 Hh.
  rewrite <- !E. exact (Hd h Hh0 Hh).
Qed.

Lemma H_derivable : forall n x,
    derivable_pt_lim (H n) x (2 * INR n * H (n - 1) x) /\
    derivable_pt_lim (H (S n)) x (2 * INR (S n) * H n x).
Proof.
  induction n as [|n IH]; intros x.
  - split.
    + replace (2 * INR 0 * H (0 - 1) x) with 0 by (simpl; ring).
      apply (derivable_pt_lim_const 1).
    + replace (2 * INR 1 * H 0 x) with (2 * 1) by (rewrite H_0; simpl; ring).
      apply (dpl_ext (fun y => 2 * y)); [intros y; rewrite H_1; reflexivity|].
      apply (derivable_pt_lim_scal id 2 x 1), derivable_pt_lim_id.
  - destruct (IH x) as (D1 & D2). replace (S n - 1)%nat with n by lia. split; [exact D2|].
    pose proof (derivable_pt_lim_mult (fun y => 2 * y) (H (S n)) x (2 * 1) _
      (derivable_pt_lim_scal id 2 x 1 (derivable_pt_lim_id x)) D2) as D3.
    pose proof (derivable_pt_lim_scal (H n) (2 * INR (S n)) x _ D1) as D4.
    pose proof (derivable_pt_lim_minus _ _ x _ _ D3 D4) as D5.
    replace (2 * INR (S (S n)) * H (S n) x) with
      (2 * 1 * H (S n) x + 2 * x * (2 * INR (S n) * H n x) - 2 * INR (S n) * (2 * INR n * H (n - 1) x)).
    + exact D5.
    + destruct n as [|n].
      * rewrite H_1, H_0. simpl. ring.
      * rewrite (H_rec (S n)) by lia. rewrite !S_INR. ring.
Qed.

Lemma H_cont : forall n, continuity (H n).
Proof.
  intros n x. apply derivable_continuous_pt. exists (2 * INR n * H (n - 1) x). apply H_derivable.
Qed.

(** A point whose Newton step is short is close to a root. *)
Lemma prod_derivative : forall n x z dl, 0 < dl -> (forall i, (i < n)%nat -> dl <= Rabs (z - x i)) ->
    exists D, derivable_pt_lim (fun y => rprod n (fun i => y - x i)) z D /\
      Rabs D * dl <= INR n * Rabs (rprod n (fun i => z - x i)).
Proof.
  induction n as [|n IH]; intros x z dl Hd Hx.
  - exists 0. split; [apply (derivable_pt_lim_const 1)|]. rewrite Rabs_R0. simpl. lra.
  - destruct (IH x z dl Hd) as (D & L & B); [intros i Hi; apply Hx; lia|].
    exists (D * (z - x n) + rprod n (fun i => z - x i) * 1). split.
    + cbn [rprod].
      apply (derivable_pt_lim_mult (fun y => rprod n (fun i => y - x i)) (fun y => y - x n)); [exact L|].
      replace 1 with (1 - 0) by ring.
      apply (derivable_pt_lim_minus id (fun _ => x n)); [apply derivable_pt_lim_id|apply derivable_pt_lim_const].
    + cbn [rprod]. set (P := rprod n (fun i => z - x i)) in *.
      specialize (Hx n ltac:(lia)).
      pose proof (Rabs_triang (D * (z - x n)) (P * 1)) as T.
      rewrite Rmult_1_r, Rabs_mult in T. rewrite Rmult_1_r, Rabs_mult, S_INR.
      pose proof (Rabs_pos P). pose proof (Rabs_pos (z - x n)). pose proof (Rabs_pos D).
      assert (Rabs D * dl * Rabs (z - x n) <= INR n * Rabs P * Rabs (z - x n))
        by (apply Rmult_le_compat_r; assumption).
      assert (Rabs P * dl <= Rabs P * Rabs (z - x n)) by (apply Rmult_le_compat_l; assumption).
      assert (Rabs (D * (z - x n) + P) * dl <= (Rabs D * Rabs (z - x n) + Rabs P) * dl)
        by (apply Rmult_le_compat_r; lra).
      nra.
Qed.

Lemma finite_or : forall n (P Q : nat -> Prop), (forall i, P i \/ Q i) ->
    (exists i, (i < n)%nat /\ P i) \/ (forall i, (i < n)%nat -> Q i).
Proof.
  induction n as [|n IH]; intros P Q H0; [right; intros; lia|].
  destruct (IH P Q H0) as [(i & Hi & Hp)|HQ]; [left; exists i; split; [lia|exact Hp]|].
  destruct (H0 n) as [Hp|Hq]; [left; exists n; split; [lia|exact Hp]|].
  right. intros i Hi. destruct (Nat.eq_dec i n) as [->|]; [exact Hq|apply HQ; lia].
Qed.

Lemma short_step_near_root : forall n x z eps, (1 <= n)%nat -> hermite_nodes n x ->
    H (n - 1) z <> 0 -> Rabs (H n z / (2 * INR n * H (n - 1) z)) < eps ->
    exists i, (i < n)%nat /\ Rabs (z - x i) < INR n * eps.
Proof.
  intros n x z eps Hn Hx Hne Hs.
  assert (He : 0 < eps) by (pose proof (Rabs_pos (H n z / (2 * INR n * H (n - 1) z))); lra).
  assert (HnR : 0 < INR n) by (apply lt_0_INR; lia).
  destruct (finite_or n (fun i => Rabs (z - x i) < INR n * eps) (fun i => INR n * eps <= Rabs (z - x i)))
    as [Hy|Hno]; [intros i; apply Rlt_or_le|exact Hy|exfalso].
  destruct (prod_derivative n x z (INR n * eps) ltac:(nra) Hno) as (D & L & B).
  pose proof (derivable_pt_lim_scal _ (2 ^ n) z D L) as L2.
  assert (L3 : derivable_pt_lim (H n) z (2 ^ n * D)).
  { refine (dpl_ext _ _ _ _ _ L2). intros y. rewrite (H_factor n x Hx y). reflexivity. }
  pose proof (uniqueness_limite _ _ _ _ L3 (proj1 (H_derivable n z))) as E.
  assert (F := H_factor n x Hx z).
  assert (P2 : 0 < 2 ^ n) by (apply pow_lt; lra).
  set (P := rprod n (fun i => z - x i)) in *.
  set (d := 2 * INR n * H (n - 1) z) in *.
  assert (Hd0 : d <> 0) by (unfold d; apply Rmult_integral_contrapositive; split; [lra|exact Hne]).
  unfold Rdiv in Hs. rewrite Rabs_mult, Rabs_inv in Hs.
  assert (Hda : 0 < Rabs d) by (apply Rabs_pos_lt, Hd0).
  assert (Hs' : Rabs (H n z) < eps * Rabs d).
  { apply (Rmult_lt_compat_r (Rabs d)) in Hs; [|exact Hda].
    rewrite Rmult_assoc, Rinv_l, Rmult_1_r in Hs by lra. exact Hs. }
  rewrite F, <- E in Hs'. rewrite !Rabs_mult, (Rabs_right (2 ^ n)) in Hs' by lra.
  pose proof (Rabs_pos D). pose proof (Rabs_pos P). nra.
Qed.
