(** Convergence of the Newton iterations of newton.py. *)
From Coq Require Import Reals Arith Lia Lra.
From Verif.Base Require Import Prelude Norms Sums.
From Verif.Model Require Import LinearSolve Newton.
From Verif.Spec Require Import LinearAlgebra Stationary NewtonRoot.
From Verif.Proofs Require Import GaussFinal ErgodicProofs StationaryLaws.
Open Scope R_scope.

Lemma dist_nonneg : forall n x y, 0 <= dist n x y.
Proof. intros. apply supnorm_nonneg. Qed.
Lemma mat_vec_minus : forall n A v w i, mat_vec n A (fun j => v j - w j) i = mat_vec n A v i - mat_vec n A w i.
Proof.
  intros. unfold mat_vec. rewrite <- rsum_minus. apply rsum_ext. intros; ring.
Qed.
Lemma dist_sym : forall n x y, dist n x y = dist n y x.
Proof.
  intros n x y. unfold dist. apply Rle_antisym; apply supnorm_le; try apply supnorm_nonneg; intros i Hi; rewrite Rabs_minus_sym;
    [apply (supnorm_ge n (fun i => y i - x i) i Hi)|apply (supnorm_ge n (fun i => x i - y i) i Hi)].
Qed.

Section Conv.
  Variable n : nat.
  Variable f : (nat -> R) -> (nat -> R) * (nat -> nat -> R).
  Variable solve : nat -> (nat -> nat -> R) -> (nat -> R) -> res (nat -> R).
  Variables (xs : nat -> R) (r K L M tol : R).
  Hypothesis Hn : (0 < n)%nat.
  Hypothesis Hex : exact_solver solve.
  Hypothesis Hco : complete_solver solve.
  Hypothesis HR : regular_root n f xs r K L M.
  Hypothesis HK : 0 < K.
  Hypothesis HL : 0 <= L.
  Hypothesis HM : 0 <= M.
  Hypothesis Htol : 0 < tol.
  Hypothesis Hr : K * L * r * (1 + K * M) < 1.

  Lemma solve_ok : forall x v, dist n x xs <= r -> exists dx, solve n (snd (f x)) v = Ok dx /\ solves n (snd (f x)) v dx.
  Proof.
    intros x v Hx. destruct (solve n (snd (f x)) v) as [dx|e] eqn:E.
    - exists dx. split; [reflexivity|]. apply (Hex _ _ _ _ E).
    - exfalso. destruct (Hco _ _ _ _ E) as (y & (i & Hi & Hy) & Ky). destruct (HR x Hx) as (_ & B & _). specialize (B y).
      assert (Z : supnorm n (mat_vec n (snd (f x)) y) = 0) by (apply supnorm_zero_iff; exact Ky).
      rewrite Z, Rmult_0_r in B. assert (Y : supnorm n y = 0) by (apply Rle_antisym; [exact B|apply supnorm_nonneg]).
      apply Hy. apply (proj1 (supnorm_zero_iff n y) Y i Hi).
  Qed.

  Lemma newton_error : forall x dx, dist n x xs <= r -> solves n (snd (f x)) (fst (f x)) dx ->
    dist n (fun i => x i - dx i) xs <= K * L * dist n x xs ^ 2.
  Proof.
    intros x dx Hx Hs. destruct (HR x Hx) as (_ & B & C).
    set (y := fun i => x i - xs i) in *. set (A := snd (f x)) in *.
    eapply Rle_trans; [apply (B (fun i => x i - dx i - xs i))|]. rewrite Rmult_assoc. apply Rmult_le_compat_l; [lra|].
    eapply Rle_trans; [|exact C]. rewrite dist_sym. unfold dist. right. apply supnorm_ext. intros i Hi.
    rewrite <- (Hs i Hi). rewrite <- mat_vec_minus. unfold mat_vec. apply rsum_ext. intros j _. unfold y. ring.
  Qed.

  Lemma residual_lower : forall x, dist n x xs <= r -> dist n x xs <= K * (supnorm n (fst (f x)) + L * dist n x xs ^ 2).
  Proof.
    intros x Hx. destruct (HR x Hx) as (_ & B & C). set (y := fun i => x i - xs i) in *.
    eapply Rle_trans; [apply (B y)|]. apply Rmult_le_compat_l; [lra|].
    eapply Rle_trans; [|apply Rplus_le_compat_l; exact C]. unfold dist.
    rewrite (supnorm_ext n (mat_vec n (snd (f x)) y) (fun i => fst (f x) i + (mat_vec n (snd (f x)) y i - fst (f x) i))) by (intros; ring).
    eapply Rle_trans; [apply supnorm_triang|]. apply Rplus_le_compat_l. right.
    apply (dist_sym n (mat_vec n (snd (f x)) y) (fst (f x))).
  Qed.

  (** The full step stays in the ball and reduces the residual. *)
  Lemma full_step : forall x dx, dist n x xs <= r -> 0 < supnorm n (fst (f x)) -> solves n (snd (f x)) (fst (f x)) dx ->
    let x' := fun i => x i - dx i in
    dist n x' xs <= dist n x xs /\ supnorm n (fst (f x')) < supnorm n (fst (f x)).
  Proof.
    intros x dx Hx Hpos Hs x'. pose proof (newton_error x dx Hx Hs) as He. fold x' in He.
    pose proof (residual_lower x Hx) as Hl. pose proof (dist_nonneg n x xs) as He0. pose proof (dist_nonneg n x' xs) as He1.
    destruct (HR x Hx) as (HMx & _).
    set (e := dist n x xs) in *. set (e1 := dist n x' xs) in *. set (F := supnorm n (fst (f x))) in *.
    assert (KL : 0 <= K * L) by (apply Rmult_le_pos; lra). assert (KM : 0 <= K * M) by (apply Rmult_le_pos; lra).
    assert (HKLe : K * L * e * (1 + K * M) < 1).
    { eapply Rle_lt_trans; [|exact Hr]. apply Rmult_le_compat_r; [lra|]. apply Rmult_le_compat_l; assumption. }
    assert (KLe : 0 <= K * L * e) by (apply Rmult_le_pos; assumption).
    assert (P1 : K * L * e < 1) by nra.
    assert (Hlt : e1 <= e).
    { eapply Rle_trans; [exact He|]. replace (K * L * e ^ 2) with (K * L * e * e) by ring. nra. }
    split; [exact Hlt|].
    destruct (HR x' ltac:(fold e1; lra)) as (HM1 & _). fold e1 in HM1.
    assert (epos : 0 < e) by (destruct (Rle_lt_or_eq_dec 0 e He0) as [Q|Q]; [exact Q|]; rewrite <- Q in HMx; lra).
    apply (Rmult_lt_reg_l K); [exact HK|].
    apply Rle_lt_trans with (K * M * e1); [rewrite Rmult_assoc; apply Rmult_le_compat_l; lra|].
    apply Rle_lt_trans with (K * M * (K * L * e ^ 2)); [apply Rmult_le_compat_l; assumption|].
    apply Rlt_le_trans with (e - K * L * e ^ 2); [|lra].
    assert (K * L * e * (1 + K * M) * e < 1 * e) by (apply Rmult_lt_compat_r; assumption). nra.
  Qed.

  Lemma backtrack_full : forall x dx, dist n x xs <= r -> 0 < supnorm n (fst (f x)) -> solves n (snd (f x)) (fst (f x)) dx ->
    backtrack n f (maxbacksteps - 1) 0 (supnorm n (fst (f x))) x dx = trial x dx 0.
  Proof.
    intros x dx Hx Hpos Hs. change (maxbacksteps - 1)%nat with 29%nat. cbn [backtrack].
    destruct (Rlt_dec _ _) as [H|H]; [reflexivity|]. exfalso. apply H.
    destruct (full_step x dx Hx Hpos Hs) as (Hd & Hf).
    (* the trial has the same entries as the full step, but is another function: bounds only depend on entries *)
    assert (Ht : forall i, trial x dx 0 i - xs i = x i - dx i - xs i) by (intros; unfold trial; simpl; ring).
    assert (Hs' : forall i, trial x dx 0 i = x i - (dx i * (/ 2) ^ 0)) by reflexivity.
    set (dx' := fun i => dx i * (/ 2) ^ 0).
    assert (S' : solves n (snd (f x)) (fst (f x)) dx').
    { intros i Hi. rewrite <- (Hs i Hi). unfold mat_vec. apply rsum_ext. intros j _. unfold dx'. simpl. ring. }
    exact (proj2 (full_step x dx' Hx Hpos S')).
  Qed.

  (** e_k <= e_0 q^(2^k - 1) with q = K L e_0. *)
  Definition rate (q : R) (k : nat) : R := q ^ (2 ^ k - 1).
  Lemma rate_succ : forall q k, rate q (S k) = q * rate (q ^ 2) k.
  Proof.
    intros q k. unfold rate. rewrite <- pow_mult.
    replace (2 ^ S k - 1)%nat with (S (2 * (2 ^ k - 1)))
      by (rewrite Nat.pow_succ_r'; pose proof (Nat.pow_nonzero 2 k ltac:(lia)); lia). reflexivity.
  Qed.
  Lemma rate_mono : forall q p k, 0 <= q <= p -> rate q k <= rate p k.
  Proof. intros. unfold rate. apply pow_incr. assumption. Qed.
  Lemma rate_nonneg : forall q k, 0 <= q -> 0 <= rate q k.
  Proof. intros. unfold rate. apply pow_le. assumption. Qed.

  Lemma newton_loop_conv : forall fuel it x, dist n x xs <= r ->
    exists y k ok, newton_loop n f (solve n) tol fuel it x = Ok (y, (it + k)%nat, ok) /\ (k <= fuel)%nat /\
      dist n y xs <= dist n x xs * rate (K * L * dist n x xs) k /\
      (ok = true -> supnorm n (fst (f y)) < tol) /\
      (forall m, (m < fuel)%nat -> M * (dist n x xs * rate (K * L * dist n x xs) m) < tol -> ok = true /\ (k <= m)%nat).
  Proof.
    induction fuel as [|fuel IH]; intros it x Hx.
    - exists x, 0%nat, false. cbn [newton_loop]. rewrite Nat.add_0_r. split; [reflexivity|]. split; [lia|]. split; [unfold rate; simpl; lra|].
      split; [discriminate|]. intros m Hm. lia.
    - cbn [newton_loop]. destruct (Nat.eqb_spec n 0); [lia|].
      destruct (f x) as [v dv] eqn:Ef. destruct (Rlt_dec (supnorm n v) tol) as [Hlt|Hge].
      + exists x, 0%nat, true. rewrite Nat.add_0_r. split; [reflexivity|]. split; [lia|]. split; [unfold rate; simpl; lra|].
        split; [intros _; rewrite Ef; exact Hlt|]. intros m _ _. split; [reflexivity|lia].
      + assert (Ev : fst (f x) = v) by (rewrite Ef; reflexivity). assert (Edv : snd (f x) = dv) by (rewrite Ef; reflexivity).
        destruct (solve_ok x v Hx) as (dx & Es & Hs). rewrite Edv in Es, Hs. rewrite Es. cbn [bind].
        assert (Hpos : 0 < supnorm n (fst (f x))) by (rewrite Ev; lra).
        assert (Hs' : solves n (snd (f x)) (fst (f x)) dx) by (rewrite Ev, Edv; exact Hs).
        pose proof (backtrack_full x dx Hx Hpos Hs') as Eb. rewrite Ev in Eb. rewrite Eb.
        set (x' := trial x dx 0).
        assert (S' : solves n (snd (f x)) (fst (f x)) (fun i => dx i * (/ 2) ^ 0)).
        { intros i Hi. rewrite <- (Hs' i Hi). unfold mat_vec. apply rsum_ext. intros j _. simpl. ring. }
        assert (E1 : dist n x' xs <= K * L * dist n x xs ^ 2) by exact (newton_error x (fun i => dx i * (/ 2) ^ 0) Hx S').
        assert (E2 : dist n x' xs <= dist n x xs) by exact (proj1 (full_step x (fun i => dx i * (/ 2) ^ 0) Hx Hpos S')).
        destruct (IH (S it) x' ltac:(lra)) as (y & k & ok & E & Hk & Hd & Hok & Hconv).
        pose proof (dist_nonneg n x xs) as He0. pose proof (dist_nonneg n x' xs) as He1.
        set (e := dist n x xs) in *. set (e1 := dist n x' xs) in *.
        assert (KL : 0 <= K * L) by (apply Rmult_le_pos; lra).
        assert (B : forall m, e1 * rate (K * L * e1) m <= e * rate (K * L * e) (S m)).
        { intros m. rewrite rate_succ. rewrite <- Rmult_assoc.
          apply Rmult_le_compat; [exact He1|apply rate_nonneg, Rmult_le_pos; assumption| |].
          - eapply Rle_trans; [exact E1|]. right. ring.
          - apply rate_mono. split; [apply Rmult_le_pos; assumption|].
            replace ((K * L * e) ^ 2) with (K * L * (K * L * e ^ 2)) by ring. apply Rmult_le_compat_l; assumption. }
        exists y, (S k), ok. split; [rewrite E; f_equal; f_equal; f_equal; lia|]. split; [lia|].
        split; [eapply Rle_trans; [exact Hd|apply B]|]. split; [exact Hok|].
        intros [|m] Hm Ht.
        * exfalso. apply Hge. destruct (HR x Hx) as (Q & _). rewrite Ev in Q. fold e in Q. unfold rate in Ht. simpl in Ht. lra.
        * destruct (Hconv m ltac:(lia)) as (A1 & A2); [|split; [exact A1|lia]].
          eapply Rle_lt_trans; [|exact Ht]. apply Rmult_le_compat_l; [exact HM|]. apply B.
  Qed.
End Conv.

Lemma newton_converges : forall n f solve xs r K L M tol maxit x0,
    (0 < n)%nat -> exact_solver solve -> complete_solver solve ->
    regular_root n f xs r K L M -> 0 < K -> 0 <= L -> 0 <= M -> 0 < tol -> K * L * r * (1 + K * M) < 1 ->
    dist n x0 xs <= r ->
    let e0 := dist n x0 xs in
    let bound k := e0 * (K * L * e0) ^ (2 ^ k - 1) in
    exists x it ok, newton n f (solve n) tol maxit x0 = Ok (x, it, ok) /\ (it <= maxit)%nat /\
      dist n x xs <= bound it /\ (ok = true -> supnorm n (fst (f x)) < tol) /\
      (forall k, (k < maxit)%nat -> M * bound k < tol -> ok = true /\ (it <= k)%nat).
Proof.
  intros n f solve xs r K L M tol maxit x0 Hn H1 H2 H3 H4 H5 H6 H7 H8 H9 e0 bound.
  destruct (newton_loop_conv n f solve xs r K L M tol Hn H1 H2 H3 H4 H5 H6 H7 H8 maxit 0 x0 H9) as (y & k & ok & E & A & B & C & D).
  exists y, k, ok. split; [exact E|]. split; [exact A|]. split; [exact B|]. split; [exact C|exact D].
Qed.

(** Affine functions: one step. *)
Lemma newton_affine : forall n f solve A b tol maxit x0,
    (0 < n)%nat -> exact_solver solve -> complete_solver solve -> ~ singular n A -> 0 < tol ->
    (forall x i, (i < n)%nat -> fst (f x) i = mat_vec n A x i - b i) -> (forall x, snd (f x) = A) -> (2 <= maxit)%nat ->
    exists x it, newton n f (solve n) tol maxit x0 = Ok (x, it, true) /\ (it <= 1)%nat /\
      (it = 1%nat -> solves n A b x).
Proof.
  intros n f solve A b tol maxit x0 Hn Hex Hco Hs Ht Hf HJ Hm. unfold newton.
  destruct maxit as [|[|m]]; [lia|lia|]. cbn [newton_loop]. destruct (Nat.eqb_spec n 0); [lia|].
  destruct (f x0) as [v dv] eqn:Ef. destruct (Rlt_dec (supnorm n v) tol) as [Hlt|Hge].
  - exists x0, 0%nat. split; [reflexivity|]. split; [lia|]. discriminate.
  - assert (Ev : fst (f x0) = v) by (rewrite Ef; reflexivity). assert (Edv : dv = A) by (rewrite <- (HJ x0), Ef; reflexivity). subst dv.
    destruct (solve n A v) as [dx|e] eqn:Es; [|exfalso; apply Hs; apply (Hco _ _ _ _ Es)]. cbn [bind].
    destruct (Hex _ _ _ _ Es) as (Hsol & _).
    assert (Sol : solves n A b (trial x0 dx 0)).
    { intros i Hi. unfold trial. rewrite (mat_vec_minus n A x0 (fun j => dx j * (/ 2) ^ 0)).
      assert (Q : mat_vec n A (fun j => dx j * (/ 2) ^ 0) i = v i).
      { rewrite <- (Hsol i Hi). unfold mat_vec. apply rsum_ext. intros; simpl; ring. }
      rewrite Q, <- Ev, (Hf x0 i Hi). ring. }
    assert (Z : supnorm n (fst (f (trial x0 dx 0))) = 0).
    { apply supnorm_zero_iff. intros i Hi. rewrite (Hf _ i Hi), (Sol i Hi). ring. }
    assert (Eb : backtrack n f (maxbacksteps - 1) 0 (supnorm n v) x0 dx = trial x0 dx 0).
    { change (maxbacksteps - 1)%nat with 29%nat. cbn [backtrack]. destruct (Rlt_dec _ _) as [H|H]; [reflexivity|]. exfalso. apply H.
      rewrite Z. lra. }
    rewrite Eb. destruct (f (trial x0 dx 0)) as [v1 dv1] eqn:Ef1. cbn [fst] in Z.
    destruct (Rlt_dec (supnorm n v1) tol) as [Q|Q]; [|lra].
    exists (trial x0 dx 0), 1%nat. split; [reflexivity|]. split; [lia|]. intros _. exact Sol.
Qed.
