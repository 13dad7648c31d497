(** Fixed points of contractions on finitely many coordinates. *)
From Coq Require Import Reals Arith Lia Lra.
Open Scope R_scope.

Section Banach.
  Variable I : Type.
  Variable inI : I -> bool.                                      (* coordinates that matter *)
  Definition near (x y : I -> R) (e : R) : Prop := forall q, inI q = true -> Rabs (x q - y q) <= e.
  Variable C : (I -> R) -> (I -> R) -> R -> Prop.                (* "at most e apart" *)
  Variable M : R.
  Hypothesis C_near : forall x y e, C x y e -> near x y e.
  Hypothesis near_C : forall x y e, 0 <= e -> near x y e -> C x y (M * e).
  Variable T : (I -> R) -> (I -> R).
  Variable lam : R.
  Hypothesis Hlam : 0 <= lam < 1.
  Hypothesis HT : forall x y e, C x y e -> C (T x) (T y) (lam * e).
  Variable x0 : I -> R.
  Variable D : R.
  Hypothesis HD : 0 <= D.
  Hypothesis H0 : C (T x0) x0 D.

  Fixpoint seqT (k : nat) : I -> R := match k with O => x0 | S k' => T (seqT k') end.

  Lemma step_close : forall k, C (seqT (S k)) (seqT k) (lam ^ k * D).
  Proof.
    intros k. induction k as [|k IH]; [cbn; rewrite Rmult_1_l; exact H0|].
    cbn [pow]. rewrite Rmult_assoc. apply (HT _ _ _ IH).
  Qed.

  Definition bound (k : nat) : R := lam ^ k * D / (1 - lam).
  Lemma bound_pos : forall k, 0 <= bound k.
  Proof.
    intros k. unfold bound. apply Rmult_le_pos; [apply Rmult_le_pos; [apply pow_le; lra|exact HD]|].
    apply Rlt_le, Rinv_0_lt_compat; lra.
  Qed.
  Lemma bound_S : forall k, bound k = lam ^ k * D + bound (S k).
  Proof. intros k. unfold bound. cbn [pow]. field. lra. Qed.
  Lemma bound_S_le : forall k, bound (S k) <= bound k.
  Proof. intros k. rewrite (bound_S k). assert (0 <= lam ^ k * D) by (apply Rmult_le_pos; [apply pow_le; lra|exact HD]). lra. Qed.
  Lemma bound_le : forall k j, (k <= j)%nat -> bound j <= bound k.
  Proof. intros k j H. induction H as [|j H IH]; [lra|]. eapply Rle_trans; [apply bound_S_le|exact IH]. Qed.

  Lemma far_close : forall p k, near (seqT (k + p)) (seqT k) (bound k - bound (k + p)).
  Proof.
    intros p. induction p as [|p IH]; intros k q Hq.
    - rewrite Nat.add_0_r, Rminus_diag_eq, Rabs_R0 by reflexivity. lra.
    - rewrite <- Nat.add_succ_comm. replace (seqT (S k + p) q - seqT k q)
        with ((seqT (S k + p) q - seqT (S k) q) + (seqT (S k) q - seqT k q)) by ring.
      eapply Rle_trans; [apply Rabs_triang|]. pose proof (IH (S k) q Hq) as A.
      pose proof (C_near _ _ _ (step_close k) q Hq) as B. pose proof (bound_S k). lra.
  Qed.

  Lemma bound_small : forall eps, 0 < eps -> exists k, bound k < eps.
  Proof.
    intros eps He. destruct (pow_lt_1_zero lam ltac:(rewrite Rabs_pos_eq; lra) (eps * (1 - lam) / (D + 1))) as (k & Hk).
    { apply Rmult_lt_0_compat; [apply Rmult_lt_0_compat; lra|apply Rinv_0_lt_compat; lra]. }
    exists k. specialize (Hk k (le_n k)). rewrite Rabs_pos_eq in Hk by (apply pow_le; lra). unfold bound.
    apply (Rmult_lt_reg_r (1 - lam)); [lra|]. unfold Rdiv at 1. rewrite Rmult_assoc, Rinv_l, Rmult_1_r by lra.
    apply (Rmult_lt_compat_r (D + 1)) in Hk; [|lra].
    unfold Rdiv in Hk. rewrite Rmult_assoc, Rinv_l, Rmult_1_r in Hk by lra.
    assert (0 <= lam ^ k) by (apply pow_le; lra). lra.
  Qed.

  Lemma seqT_cauchy : forall q, inI q = true -> Cauchy_crit (fun k => seqT k q).
  Proof.
    intros q Hq eps He. destruct (bound_small (eps / 2) ltac:(lra)) as (k & Hk). exists k. intros n m Hn Hm.
    unfold R_dist. replace n with (k + (n - k))%nat by lia. replace m with (k + (m - k))%nat by lia.
    pose proof (far_close (n - k) k q Hq) as A. pose proof (far_close (m - k) k q Hq) as B.
    pose proof (bound_pos (k + (n - k))). pose proof (bound_pos (k + (m - k))).
    replace (seqT (k + (n - k)) q - seqT (k + (m - k)) q)
      with ((seqT (k + (n - k)) q - seqT k q) - (seqT (k + (m - k)) q - seqT k q)) by ring.
    eapply Rle_lt_trans; [apply Rabs_triang|]. rewrite Rabs_Ropp. lra.
  Qed.

  Definition limT (q : I) : R :=
    match Sumbool.sumbool_of_bool (inI q) with
    | left H => proj1_sig (R_complete _ (seqT_cauchy q H))
    | right _ => 0
    end.

  Lemma lim_close : forall k, near (seqT k) limT (bound k).
  Proof.
    intros k q Hq. unfold limT. destruct (Sumbool.sumbool_of_bool (inI q)) as [H|H]; [|congruence].
    destruct (R_complete _ (seqT_cauchy q H)) as (l & Hl). cbn.
    destruct (Rle_lt_dec (Rabs (seqT k q - l)) (bound k)) as [Hle|Hlt]; [exact Hle|exfalso].
    destruct (Hl (Rabs (seqT k q - l) - bound k) ltac:(lra)) as (N & HN). specialize (HN (k + N)%nat ltac:(lia)).
    unfold R_dist in HN. pose proof (far_close N k q Hq) as A. pose proof (bound_pos (k + N)).
    assert (Rabs (seqT k q - l) <= Rabs (seqT (k + N) q - seqT k q) + Rabs (seqT (k + N) q - l)).
    { replace (seqT k q - l) with (- (seqT (k + N) q - seqT k q) + (seqT (k + N) q - l)) by ring.
      eapply Rle_trans; [apply Rabs_triang|]. rewrite Rabs_Ropp. lra. }
    lra.
  Qed.

  Theorem banach : exists x, forall q, inI q = true -> T x q = x q.
  Proof.
    exists limT. intros q Hq. apply Rminus_diag_uniq.
    destruct (Req_dec (T limT q - limT q) 0) as [|Hne]; [assumption|exfalso]. apply Rabs_pos_lt in Hne.
    assert (HB : forall k, Rabs (T limT q - limT q) <= (lam * Rabs M + 1) * bound k).
    { intros k. pose proof (near_C _ _ _ (bound_pos k) (lim_close k)) as A. apply HT, C_near in A. specialize (A q Hq).
      pose proof (lim_close (S k) q Hq) as B. cbn [seqT] in B.
      replace (T limT q - limT q) with (- (T (seqT k) q - T limT q) + (T (seqT k) q - limT q)) by ring.
      eapply Rle_trans; [apply Rabs_triang|]. rewrite Rabs_Ropp.
      assert (bound (S k) <= bound k) by apply bound_S_le.
      assert (lam * (M * bound k) <= lam * (Rabs M * bound k)).
      { apply Rmult_le_compat_l; [lra|]. apply Rmult_le_compat_r; [apply bound_pos|apply Rle_abs]. }
      lra. }
    assert (P : 0 < lam * Rabs M + 1).
    { assert (0 <= lam * Rabs M) by (apply Rmult_le_pos; [lra|apply Rabs_pos]). lra. }
    destruct (bound_small (Rabs (T limT q - limT q) / (lam * Rabs M + 1))) as (k & Hk).
    { apply Rmult_lt_0_compat; [exact Hne|apply Rinv_0_lt_compat; exact P]. }
    specialize (HB k). apply (Rmult_lt_compat_r (lam * Rabs M + 1)) in Hk; [|exact P].
    unfold Rdiv in Hk. rewrite Rmult_assoc, Rinv_l in Hk by lra. lra.
  Qed.
End Banach.
