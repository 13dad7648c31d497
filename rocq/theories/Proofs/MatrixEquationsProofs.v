(** Proofs on matrix equations. *)
From Coq Require Import String Reals List Arith Bool Lia Lra.
From Verif.Base Require Import Prelude Sums Arrays Nda.
From Verif.Spec Require Import LinearAlgebra Perturbation Tensor.
From Verif.Model Require Import LinearSolve MatrixEquations.
From Verif.Proofs Require Import GaussFinal MatrixAlgebra PerturbationProofs PerturbationFinal TensorProofs.
Import ListNotations.
Open Scope R_scope.

(* ------------------------------------------------------------------ *)
(** ** Tensor powers *)

Lemma powers_snoc : forall C ls js l j, length ls = length js -> powers C (ls ++ [l]) (js ++ [j]) = powers C ls js * C l j.
Proof.
  induction ls as [|x ls IH]; intros js l j H; destruct js as [|y js]; cbn in H; try lia; cbn; [ring|].
  rewrite IH by lia. ring.
Qed.

Definition is_power (v e : nat) (C CC : mat) : Prop :=
  nrow CC = (v ^ e)%nat /\ ncol CC = (v ^ e)%nat /\
  forall ls js, valid ls (repeat v e) -> valid js (repeat v e) ->
    mget CC (ravel (repeat v e) ls) (ravel (repeat v e) js) = powers (mget C) ls js.

Lemma repeat_snoc : forall {A} (x : A) e, repeat x (S e) = repeat x e ++ [x].
Proof. intros A x. induction e as [|e IH]; [reflexivity|]. cbn [repeat app] in *. f_equal. exact IH. Qed.

Lemma valid_snoc : forall idx v e, valid idx (repeat v (S e)) ->
    exists a l, idx = a ++ [l] /\ valid a (repeat v e) /\ (l < v)%nat.
Proof.
  intros idx v e H. rewrite repeat_snoc in H. apply Forall2_app_inv_r in H.
  destruct H as (a & b & Ha & Hb & ->). inversion Hb as [|l ? b' ? Hl Hb']; subst. inversion Hb'; subst.
  exists a, l. split; [reflexivity|]. split; assumption.
Qed.

Lemma ravel_snoc : forall v e a l, valid a (repeat v e) -> ravel (repeat v (S e)) (a ++ [l]) = (ravel (repeat v e) a * v + l)%nat.
Proof.
  intros v e a l H. rewrite repeat_snoc, ravel_app by (apply valid_length; exact H). cbn. lia.
Qed.

Lemma is_power_1 : forall v C, nrow C = v -> ncol C = v -> is_power v 1 C C.
Proof.
  intros v C H1 H2. unfold is_power. cbn [repeat Nat.pow]. rewrite Nat.mul_1_r. split; [exact H1|]. split; [exact H2|].
  intros ls js Hl Hj. inversion Hl as [|l ? ? ? _ Hl']; subst. inversion Hl'; subst.
  inversion Hj as [|j ? ? ? _ Hj']; subst. inversion Hj'; subst. cbn. rewrite !Nat.mul_1_r, !Nat.add_0_r. ring.
Qed.

Lemma is_power_S : forall v e C CC, nrow C = v -> ncol C = v -> is_power v e C CC -> is_power v (S e) C (kron CC C).
Proof.
  intros v e C CC H1 H2 (R1 & R2 & HV). unfold is_power, kron. cbn [nrow ncol mget].
  rewrite R1, R2, H1, H2. split; [cbn; lia|]. split; [cbn; lia|].
  intros ls js Hl Hj. destruct (valid_snoc _ _ _ Hl) as (a & l & -> & Ha & Hlv). destruct (valid_snoc _ _ _ Hj) as (b & j & -> & Hb & Hjv).
  rewrite !ravel_snoc by assumption. rewrite !Nat.div_add_l by lia. rewrite (Nat.div_small l v), (Nat.div_small j v) by assumption.
  rewrite !Nat.add_0_r. rewrite HV by assumption.
  rewrite (Nat.add_comm _ l), (Nat.add_comm _ j), !Nat.mod_add, !Nat.mod_small by lia.
  rewrite powers_snoc by (apply valid_length in Ha, Hb; congruence). reflexivity.
Qed.

Lemma kron_more_power : forall t v e C CC, nrow C = v -> ncol C = v -> is_power v e C CC -> is_power v (e + t) C (kron_more CC C t).
Proof.
  induction t as [|t IH]; intros v e C CC H1 H2 H; cbn [kron_more]; [rewrite Nat.add_0_r; exact H|].
  replace (e + S t)%nat with (S e + t)%nat by lia. apply IH; [exact H1|exact H2|]. apply is_power_S; assumption.
Qed.

Lemma kron_power_ok : forall v d C, nrow C = v -> ncol C = v -> (1 <= d)%nat -> is_power v d C (kron_power C d).
Proof.
  intros v d C H1 H2 Hd. unfold kron_power. destruct (Nat.eqb_spec d 1) as [->|Hne].
  - apply (kron_more_power 0 v 1); [exact H1|exact H2|]. apply is_power_1; assumption.
  - replace d with (2 + (d - 2))%nat at 1 by lia. apply kron_more_power; [exact H1|exact H2|].
    apply is_power_S; [exact H1|exact H2|]. apply is_power_1; assumption.
Qed.

(* ------------------------------------------------------------------ *)
(** ** Sylvester equations *)

Lemma div_mod_block : forall w i p, (p < w)%nat -> ((i * w + p) / w = i /\ (i * w + p) mod w = p)%nat.
Proof.
  intros w i p H. split.
  - rewrite Nat.div_add_l by lia. rewrite Nat.div_small by exact H. lia.
  - rewrite Nat.add_comm, Nat.mod_add by lia. apply Nat.mod_small. exact H.
Qed.

Lemma Ok_inj : forall {A} (x y : A), Ok x = Ok y -> x = y.
Proof. intros A x y H. injection H as H. exact H. Qed.

Section Sylvester.
  Variable solve : nat -> (nat -> nat -> R) -> (nat -> R) -> res (nat -> R).
  Variables (A B C : mat) (D : nda) (n v d : nat).
  Hypothesis HA : nrow A = n /\ ncol A = n.
  Hypothesis HB : nrow B = n /\ ncol B = n.
  Hypothesis HC : nrow C = v /\ ncol C = v.
  Hypothesis HD : shape D = n :: repeat v d.
  Hypothesis Hd : (1 <= d)%nat.
  Hypothesis Hv : (1 <= v)%nat.
  Let w := (v ^ d)%nat.
  Let CC := kron_power C d.
  Let L : nat -> nat -> R := fun i j => mget A (i / w) (j / w) * eye (j mod w) (i mod w) + mget B (i / w) (j / w) * mget CC (j mod w) (i mod w).
  Let K : nat -> R := fun r => at_ D (unravel (shape D) r).

  Lemma w_pos : (0 < w)%nat.
  Proof. unfold w. assert (v ^ d <> 0)%nat by (apply Nat.pow_nonzero; lia). lia. Qed.

  Lemma CC_power : is_power v d C CC.
  Proof. unfold CC. apply kron_power_ok; [apply HC|apply HC|exact Hd]. Qed.

  Lemma sylvester_run : exists k, (forall r, (r < n * w)%nat -> k r = - K r) /\
      solve_sylvester solve A B C D =
      bind (solve (n * w)%nat L k) (fun X =>
        Ok (Nda (n :: repeat v d) (fun idx => X (nth 0 (unravel [n; w] (ravel (n :: repeat v d) idx)) 0 * w + nth 1 (unravel [n; w] (ravel (n :: repeat v d) idx)) 0)%nat))).
  Proof.
    pose proof w_pos as Hw. destruct CC_power as (R1 & R2 & _). fold w in R1, R2.
    exists (fun r => - at_ D (unravel (n :: repeat v d) (r / w * (w * 1) + (r mod w * 1 + 0)))). split.
    - intros r Hr. unfold K. rewrite HD. do 3 f_equal. rewrite Nat.mul_1_r, Nat.mul_1_r, Nat.add_0_r.
      rewrite Nat.mul_comm. symmetry. apply Nat.div_mod. lia.
    - unfold solve_sylvester. rewrite HD. cbn [length]. rewrite repeat_length.
      rewrite (proj2 HC). fold w. destruct (Nat.eqb_spec w 0); [lia|].
      rewrite size_cons, size_repeat. fold w. rewrite Nat.div_mul by lia.
      assert (E1 : reshape D [n; w] = Ok (Nda [n; w] (fun idx => at_ D (unravel (shape D) (ravel [n; w] idx))))).
      { unfold reshape. rewrite HD, size_cons, size_repeat. fold w.
        destruct (Nat.eqb_spec (n * w) (size [n; w])) as [_|Hne]; [reflexivity|]. exfalso. apply Hne. cbn. lia. }
      rewrite E1. cbn [bind at_]. unfold solve_sylvester_vectorized. fold CC. cbn [nrow ncol mget mat_eye].
      unfold mat_add, kron, mat_t. cbn [nrow ncol mget mat_eye]. rewrite R1, R2, (proj1 HA), (proj2 HA), (proj1 HB), (proj2 HB).
      rewrite !Nat.eqb_refl. cbn [andb bind]. unfold np_solve. cbn [nrow ncol mget]. rewrite !Nat.eqb_refl. cbn [negb].
      rewrite HD. fold L.
      destruct (solve (n * w)%nat L _) as [X|e]; [|reflexivity]. cbn [bind]. unfold reshape. cbn [shape nrow ncol at_ mget].
      destruct (Nat.eqb_spec (size [n; w]) (size (n :: repeat v d))) as [_|Hne]; [reflexivity|].
      exfalso. apply Hne. rewrite !size_cons, size_repeat. fold w. cbn. lia.
  Qed.

  Lemma sylvester_solves : exact_solver solve -> forall X, solve_sylvester solve A B C D = Ok X ->
      shape X = shape D /\ sylvester n v d (mget A) (mget B) (mget C) X D.
  Proof.
    intros HE X HX. pose proof w_pos as Hw. destruct CC_power as (R1 & R2 & HP). fold w in R1, R2.
    destruct sylvester_run as (k & Hk & E). rewrite HX in E.
    destruct (solve (n * w)%nat L k) as [x|e] eqn:ES; cbn [bind] in E; [|discriminate].
    apply Ok_inj in E. subst X. split; [cbn; rewrite HD; reflexivity|].
    destruct (HE _ _ _ _ ES) as (HS & _).
    intros i js Hi Hjs.
    set (p := ravel (repeat v d) js).
    assert (Hp : (p < w)%nat).
    { unfold p. pose proof (ravel_lt _ _ Hjs) as Q. rewrite size_repeat in Q. exact Q. }
    assert (Hr : (i * w + p < n * w)%nat) by nia.
    assert (AT : forall q ls, (q < n)%nat -> valid ls (repeat v d) ->
        (nth 0 (unravel [n; w] (ravel (n :: repeat v d) (q :: ls))) 0 * w + nth 1 (unravel [n; w] (ravel (n :: repeat v d) (q :: ls))) 0)%nat
        = (q * w + ravel (repeat v d) ls)%nat).
    { intros q ls Hq Hls. cbn [ravel]. rewrite size_repeat. fold w.
      pose proof (ravel_lt _ _ Hls) as Q. rewrite size_repeat in Q. fold w in Q.
      cbn [unravel nth size fold_right]. rewrite Nat.mul_1_r.
      destruct (div_mod_block w q (ravel (repeat v d) ls) Q) as (-> & ->). rewrite Nat.div_1_r. reflexivity. }
    cbn [at_].
    specialize (HS (i * w + p)%nat Hr). unfold mat_vec in HS. rewrite (Hk _ Hr) in HS.
    assert (EK : K (i * w + p)%nat = at_ D (i :: js)).
    { unfold K. f_equal. rewrite HD. unfold p. replace (i * w)%nat with (i * size (repeat v d))%nat by (rewrite size_repeat; reflexivity).
      change (i * size (repeat v d) + ravel (repeat v d) js)%nat with (ravel (n :: repeat v d) (i :: js)).
      apply unravel_ravel. constructor; assumption. }
    rewrite EK in HS.
    rewrite (rsum_ext _ _ (fun c => (fun k q => L (i * w + p)%nat (k * w + q)%nat * x (k * w + q)%nat) (c / w)%nat (c mod w)%nat)) in HS.
    2:{ intros c _. cbv beta. replace (c / w * w + c mod w)%nat with c; [reflexivity|].
        rewrite Nat.mul_comm. apply Nat.div_mod. lia. }
    rewrite (rsum_prod n w (fun k q => L (i * w + p)%nat (k * w + q)%nat * x (k * w + q)%nat)) in HS.
    rewrite (rsum_ext n (fun k0 => mget A i k0 * _) (fun k0 => mget A i k0 * x (k0 * w + p)%nat)).
    2:{ intros q Hq. f_equal. rewrite AT by assumption. reflexivity. }
    rewrite (rsum_ext n (fun k0 => mget B i k0 * _) (fun k0 => mget B i k0 * rsum w (fun q => mget CC q p * x (k0 * w + q)%nat))).
    2:{ intros q Hq. f_equal. rewrite <- (rsum_unravel (repeat v d)), size_repeat. fold w. apply rsum_ext. intros c Hc0.
        assert (Hc : (c < size (repeat v d))%nat) by (rewrite size_repeat; exact Hc0).
        rewrite AT by (try assumption; apply unravel_valid; exact Hc).
        rewrite <- (HP _ _ (unravel_valid _ _ Hc) Hjs).
        rewrite !ravel_unravel by exact Hc. fold p. ring. }
    rewrite <- rsum_plus. apply Rplus_eq_reg_r with (- at_ D (i :: js)). rewrite Rplus_assoc, Rplus_opp_r, Rplus_0_r, Rplus_0_l.
    rewrite <- HS. apply rsum_ext. intros q Hq. symmetry.
    rewrite (rsum_ext w _ (fun c => mget A i q * (eye c p * x (q * w + c)%nat) + mget B i q * (mget CC c p * x (q * w + c)%nat))).
    2:{ intros c Hc. unfold L. destruct (div_mod_block w i p Hp) as (-> & ->). destruct (div_mod_block w q c Hc) as (-> & ->). ring. }
    rewrite rsum_plus, !rsum_scal. f_equal. f_equal.
    rewrite (rsum_single w p); [unfold eye; rewrite Nat.eqb_refl; ring|exact Hp|].
    intros c _ Hc. unfold eye. destruct (Nat.eqb_spec c p); [contradiction|ring].
  Qed.

End Sylvester.

(** The linear system that must be regular: kron(A, I) + kron(B, (C x ... x C)'). *)
Definition sylvester_matrix (w : nat) (A B CC : mat) : nat -> nat -> R := fun i j =>
  mget A (i / w) (j / w) * eye (j mod w) (i mod w) + mget B (i / w) (j / w) * mget CC (j mod w) (i mod w).

Lemma sylvester_returns : forall A B C D n v d,
    nrow A = n /\ ncol A = n -> nrow B = n /\ ncol B = n -> nrow C = v /\ ncol C = v ->
    shape D = n :: repeat v d -> (1 <= d)%nat -> (1 <= v)%nat ->
    ~ singular (n * v ^ d) (sylvester_matrix (v ^ d) A B (kron_power C d)) ->
    exists X, solve_sylvester gauss_solve A B C D = Ok X.
Proof.
  intros A B C D n v d HA HB HC HD Hd Hv HL.
  destruct (sylvester_run gauss_solve A B C D n v d HA HB HC HD Hd Hv) as (k & _ & ->).
  pose proof (gauss_solve_correct (n * v ^ d) (sylvester_matrix (v ^ d) A B (kron_power C d)) k) as G.
  unfold sylvester_matrix in *.
  destruct (gauss_solve (n * v ^ d)%nat _ k) as [x|e]; [eexists; reflexivity|contradiction].
Qed.

(** One-dimensional right-hand sides (order 0): the code multiplies by C twice. *)
Lemma sylvester_order_0 :
  exists X, solve_sylvester gauss_solve (Mat 1 1 (fun _ _ => 1)) (Mat 1 1 (fun _ _ => 1)) (Mat 1 1 (fun _ _ => 2)) (Nda [1%nat] (fun _ => 5)) = Ok X /\
    at_ X [0%nat] = -1.
Proof.
  unfold solve_sylvester, solve_sylvester_vectorized, mat_add, kron, mat_t, np_solve, reshape. cbn -[gauss_solve]. change (1 / 1)%nat with 1%nat. cbn -[gauss_solve].
  match goal with |- context [gauss_solve 1 ?L ?b] => pose proof (gauss_solve_correct 1 L b) as G end.
  destruct (gauss_solve 1 _ _) as [x|e].
  - destruct G as (G & _). eexists. split; [reflexivity|]. cbn. specialize (G 0%nat ltac:(lia)).
    cbv -[Rplus Rmult Ropp Rinv IZR Rminus Rdiv] in G. cbv -[Rplus Rmult Ropp Rinv IZR Rminus Rdiv]. lra.
  - destruct G as (z & (i & Hi & Hne) & Hz). exfalso. apply Hne. assert (i = 0%nat) by lia. subst i.
    specialize (Hz 0%nat ltac:(lia)). cbv -[Rplus Rmult Ropp Rinv IZR Rminus Rdiv] in Hz. lra.
Qed.

Lemma sylvester_order_0_raises : forall solve A B C D n v,
    nrow A = n /\ ncol A = n -> nrow B = n /\ ncol B = n -> nrow C = v /\ ncol C = v -> shape D = [n] ->
    (1 <= n)%nat -> v <> 1%nat -> exists e, solve_sylvester solve A B C D = Err e.
Proof.
  intros solve A B C D n v HA HB HC HD Hn Hv. unfold solve_sylvester. rewrite HD. cbn [length].
  rewrite (proj2 HC). cbn [Nat.pow Nat.eqb]. unfold reshape. rewrite HD.
  replace (size [n] / 1)%nat with n by (cbn; rewrite Nat.mul_1_r, Nat.div_1_r; reflexivity).
  destruct (Nat.eqb_spec (size [n]) (size [n; 1%nat])); [|eexists; reflexivity]. cbn [bind].
  unfold solve_sylvester_vectorized, kron_power, mat_add, kron, mat_t. cbn [nrow ncol mget mat_eye Nat.eqb kron_more Nat.sub kron].
  rewrite (proj1 HA), (proj2 HA), (proj1 HB), (proj2 HB), (proj1 HC), (proj2 HC), !Nat.eqb_refl. cbn [andb bind].
  unfold np_solve. cbn [nrow ncol]. rewrite Nat.eqb_refl. cbn [negb].
  destruct (Nat.eqb_spec (n * (v * v)) (n * 1)) as [E|_]; [|eexists; reflexivity].
  exfalso. apply Hv. destruct v as [|[|v]]; [|reflexivity|]; nia.
Qed.

(** Example: x1 = 2 unknowns. *)
Definition ex_C : mat := Mat 2 2 (fun i j => if Nat.eqb i j then INR (i + 1) else if Nat.ltb j i then 1 else 0).
Definition ex_one : mat := Mat 1 1 (fun _ _ => 1).
Lemma sylvester_example : exists X, solve_sylvester gauss_solve ex_one ex_one ex_C (Nda [1; 2]%nat (fun _ => 5)) = Ok X.
Proof.
  apply (sylvester_returns ex_one ex_one ex_C _ 1 2 1); try (split; reflexivity); try reflexivity; try lia.
  apply triangular_nonsingular.
  - intros i j Hij Hi. cbn in Hi. assert (i = 1%nat /\ j = 0%nat) as (-> & ->) by lia. cbv -[Rplus Rmult Ropp Rinv IZR Rminus Rdiv]. lra.
  - intros i Hi. cbn in Hi. destruct i as [|[|i]]; [| |lia]; cbv -[Rplus Rmult Ropp Rinv IZR Rminus Rdiv]; lra.
Qed.

(* ------------------------------------------------------------------ *)
(** ** Quadratic matrix equations *)

Lemma solve_columns_spec : forall solve n A B X, exact_solver solve -> solve_columns solve n A B = Ok X ->
    forall i j, (i < n)%nat -> (j < n)%nat -> mat_mul n A X i j = B i j.
Proof.
  intros solve n A B X HE H.
  assert (G : forall k, (k <= n)%nat -> forall X, for_range_res k (fun j X =>
      bind (solve n A (fun i => B i j)) (fun x => Ok (fun i k => if Nat.eqb k j then x i else X i k))) (fun _ _ => 0) = Ok X ->
      forall i j, (i < n)%nat -> (j < k)%nat -> mat_mul n A X i j = B i j).
  { induction k as [|k IH]; intros Hk Y HY i j Hi Hj; [lia|]. cbn [for_range_res] in HY.
    destruct (for_range_res k _ _) as [Y0|e] eqn:E; cbn [bind] in HY; [|discriminate].
    destruct (solve n A (fun i => B i k)) as [x|e] eqn:ES; cbn [bind] in HY; [|discriminate].
    apply Ok_inj in HY. subst Y. destruct (Nat.eq_dec j k) as [->|Hne].
    - destruct (HE _ _ _ _ ES) as (HS & _). rewrite <- (HS i Hi). apply rsum_ext. intros c _. rewrite Nat.eqb_refl. reflexivity.
    - rewrite <- (IH ltac:(lia) Y0 eq_refl i j Hi ltac:(lia)). apply rsum_ext. intros c _.
      destruct (Nat.eqb_spec j k); [contradiction|reflexivity]. }
  intros i j Hi Hj. exact (G n (Nat.le_refl n) X H i j Hi Hj).
Qed.

Lemma solve_columns_nonsingular : forall solve n A B X, exact_solver solve -> solve_columns solve n A B = Ok X -> ~ singular n A.
Proof.
  intros solve n A B X HE H (z & (i & Hi & Hne) & Hz). destruct n as [|n]; [lia|].
  unfold solve_columns in H. cbn [for_range_res] in H.
  destruct (for_range_res n _ _) as [Y|e]; cbn [bind] in H; [|discriminate].
  destruct (solve (S n) A (fun i => B i n)) as [x|e] eqn:ES; [|discriminate].
  destruct (HE _ _ _ _ ES) as (HS & HU). apply Hne.
  assert (K : x i + z i = x i).
  { apply (HU (fun k => x k + z k)); [|exact Hi]. intros a Ha. unfold mat_vec.
    rewrite (rsum_ext _ _ (fun k => A a k * x k + A a k * z k)) by (intros; ring). rewrite rsum_plus.
    fold (mat_vec (S n) A x a) (mat_vec (S n) A z a). rewrite (HS a Ha), (Hz a Ha). ring. }
  lra.
Qed.

Lemma quadratic_solves : forall solve qz m F G H P SS TT QQ ZZ,
    exact_solver solve -> second_order_solver solve qz m F G H = Ok P ->
    qz (m + m)%nat (companion_delta m F) (companion_xi m G H) 1 = Ok (SS, TT, QQ, ZZ) ->
    generalized_schur (m + m) (companion_delta m F) (companion_xi m G H) SS TT QQ ZZ ->
    splits_at m (m + m) SS -> splits_at m (m + m) TT ->
    quadratic_root m F G H P.
Proof.
  intros solve qz m F G H P SS TT Q Z HE HR Hq HG HS HT.
  unfold second_order_solver in HR. rewrite Hq in HR. cbn [bind] in HR.
  destruct (solve_columns solve m _ _) as [X|e] eqn:EX; cbn [bind] in HR; [|discriminate].
  apply Ok_inj in HR.
  pose proof (solve_columns_spec _ _ _ _ _ HE EX) as HX. pose proof (solve_columns_nonsingular _ _ _ _ _ HE EX) as HN.
  set (N := fun i j => Z j (m + i)%nat) in *.
  set (Z21 := fun i j => Z (m + i)%nat j).
  set (Q21 := fun i j => Q (m + i)%nat j).
  destruct (inverse_exists m N HN) as (NI & HNI).
  (* Z11 = P Z21 *)
  assert (ORT : forall i j, (i < m)%nat -> (j < m)%nat -> mat_mul m N Z i j + mat_mul m (fun a b => Z (m + b)%nat (m + a)%nat) Z21 i j = 0).
  { intros i j Hi Hj. pose proof (schur_Z _ _ _ _ _ _ _ HG (m + i)%nat j ltac:(lia) ltac:(lia)) as O.
    rewrite mat_mul_split in O. unfold eye in O. destruct (Nat.eqb_spec (m + i) j); [lia|]. exact O. }
  assert (Z1P : forall i j, (i < m)%nat -> (j < m)%nat -> Z i j = mat_mul m P Z21 i j).
  { assert (NE : forall i j, (i < m)%nat -> (j < m)%nat -> mat_mul m N Z i j = mat_mul m N (mat_mul m P Z21) i j).
    { intros i j Hi Hj. specialize (ORT i j Hi Hj). rewrite <- mat_mul_assoc.
      rewrite (mat_mul_ext m (mat_mul m N P) (fun a b => - Z (m + b)%nat (m + a)%nat) Z21 Z21).
      - rewrite mat_mul_opp_l. lra.
      - intros k Hk. rewrite <- HX by assumption. rewrite <- HR. unfold mat_mul. rewrite <- rsum_opp. apply rsum_ext. intros; ring.
      - reflexivity. }
    intros i j Hi Hj.
    rewrite <- (mat_mul_eye_l m Z (mat_mul m NI N) i j Hi (proj2 HNI)).
    rewrite <- (mat_mul_eye_l m (mat_mul m P Z21) (mat_mul m NI N) i j Hi (proj2 HNI)).
    rewrite !mat_mul_assoc. apply mat_mul_ext; [reflexivity|]. intros k Hk. rewrite NE by assumption. reflexivity. }
  (* Z21 is invertible *)
  assert (H21 : ~ singular m Z21).
  { intros (z & (i & Hi & Hne) & Hz). apply Hne.
    assert (K : forall k, (k < m + m)%nat -> rsum m (fun j => Z k j * z j) = 0).
    { intros k Hk. destruct (Nat.lt_ge_cases k m) as [Hlt|Hge].
      - rewrite (rsum_ext m _ (fun j => mat_mul m P Z21 k j * z j)) by (intros j Hj; rewrite <- Z1P by assumption; reflexivity).
        fold (mat_vec m (mat_mul m P Z21) z k). rewrite mat_vec_mul. apply rsum_0. intros a Ha.
        rewrite (Hz a Ha). ring.
      - specialize (Hz (k - m)%nat ltac:(lia)). unfold mat_vec, Z21 in Hz. replace (m + (k - m))%nat with k in Hz by lia. exact Hz. }
    assert (Z0 : rsum m (fun j => mat_mul (m + m) (fun a b => Z b a) Z i j * z j) = 0).
    { unfold mat_mul. rewrite (rsum_ext m _ (fun j => rsum (m + m) (fun k => Z k i * (Z k j * z j)))).
      - rewrite rsum_swap. apply rsum_0. intros k Hk. rewrite rsum_scal, (K k Hk). ring.
      - intros j _. rewrite <- rsum_scal_r. apply rsum_ext. intros; ring. }
    rewrite (rsum_ext m _ (fun j => eye i j * z j)) in Z0.
    2:{ intros j Hj. rewrite (schur_Z _ _ _ _ _ _ _ HG) by lia. reflexivity. }
    rewrite (rsum_single m i) in Z0; [|exact Hi|].
    - unfold eye in Z0. rewrite Nat.eqb_refl in Z0. lra.
    - intros j _ Hj. unfold eye. destruct (Nat.eqb_spec i j); [subst; contradiction|ring]. }
  destruct (inverse_exists m Z21 H21) as (V & HV).
  assert (QS : forall U i j, splits_at m (m + m) U -> (j < m)%nat -> mat_mul (m + m) Q U i j = mat_mul m Q U i j).
  { intros U i j HU Hj. rewrite mat_mul_split, Rplus_comm, mat_mul_0_r; [ring|]. intros k Hk. apply HU; lia. }
  pose proof (schur_columns _ _ _ _ _ (schur_Z _ _ _ _ _ _ _ HG) (schur_A _ _ _ _ _ _ _ HG)) as CA.
  pose proof (schur_columns _ _ _ _ _ (schur_Z _ _ _ _ _ _ _ HG) (schur_B _ _ _ _ _ _ _ HG)) as CB.
  assert (A1 : forall i j, (i < m)%nat -> (j < m)%nat -> mat_mul m F Z i j = mat_mul m Q SS i j).
  { intros i j Hi Hj. rewrite <- (QS SS i j HS Hj), <- CA by lia. rewrite mat_mul_split, Rplus_comm, (mat_mul_0_l m (fun a b => companion_delta m F a (m + b)%nat)).
    - rewrite Rplus_0_l. apply mat_mul_ext; [|reflexivity]. intros k Hk. unfold companion_delta.
      rewrite !(proj2 (Nat.ltb_lt _ _)) by lia. reflexivity.
    - intros k Hk. unfold companion_delta. rewrite (proj2 (Nat.ltb_lt i m)), (proj2 (Nat.ltb_ge (m + k) m)) by lia. reflexivity. }
  assert (A2 : forall i j, (i < m)%nat -> (j < m)%nat -> Z21 i j = mat_mul m Q21 SS i j).
  { intros i j Hi Hj. transitivity (mat_mul m Q SS (m + i)%nat j); [|reflexivity].
    rewrite <- (QS SS _ j HS Hj), <- CA by lia. rewrite mat_mul_split, mat_mul_0_l.
    - rewrite Rplus_0_l. symmetry. fold Z21.
      rewrite (mat_mul_ext m _ (fun _ b => eye i b) Z21 Z21).
      + apply (mat_mul_eye_l m Z21 eye i j Hi). reflexivity.
      + intros k Hk. unfold companion_delta. rewrite !(proj2 (Nat.ltb_ge _ _)) by lia.
        replace (m + i - m)%nat with i by lia. replace (m + k - m)%nat with k by lia. reflexivity.
      + reflexivity.
    - intros k Hk. unfold companion_delta. rewrite (proj2 (Nat.ltb_lt k m)), (proj2 (Nat.ltb_ge (m + i) m)) by lia. reflexivity. }
  assert (B1 : forall i j, (i < m)%nat -> (j < m)%nat -> - mat_mul m G Z i j - mat_mul m H Z21 i j = mat_mul m Q TT i j).
  { intros i j Hi Hj. rewrite <- (QS TT i j HT Hj), <- CB by lia. rewrite mat_mul_split. unfold Rminus.
    unfold mat_mul. rewrite <- !rsum_opp. f_equal; apply rsum_ext; intros k Hk; unfold companion_xi.
    - rewrite !(proj2 (Nat.ltb_lt _ _)) by lia. ring.
    - rewrite (proj2 (Nat.ltb_lt i m)), (proj2 (Nat.ltb_ge (m + k) m)) by lia. replace (m + k - m)%nat with k by lia. unfold Z21. ring. }
  assert (B2 : forall i j, (i < m)%nat -> (j < m)%nat -> Z i j = mat_mul m Q21 TT i j).
  { intros i j Hi Hj. transitivity (mat_mul m Q TT (m + i)%nat j); [|reflexivity].
    rewrite <- (QS TT _ j HT Hj), <- CB by lia. rewrite mat_mul_split, Rplus_comm, mat_mul_0_l.
    - rewrite Rplus_0_l. symmetry.
      rewrite (mat_mul_ext m _ (fun _ b => eye i b) Z Z).
      + apply (mat_mul_eye_l m Z eye i j Hi). reflexivity.
      + intros k Hk. unfold companion_xi. rewrite (proj2 (Nat.ltb_ge _ _)), (proj2 (Nat.ltb_lt _ _)) by lia.
        replace (m + i - m)%nat with i by lia. reflexivity.
      + reflexivity.
    - intros k Hk. unfold companion_xi. rewrite !(proj2 (Nat.ltb_ge _ _)) by lia. reflexivity. }
  assert (HSN : ~ singular m SS).
  { intros (z & (i & Hi & Hne) & Hz). apply H21. exists z. split; [exists i; split; assumption|].
    intros a Ha. unfold mat_vec. rewrite (rsum_ext m _ (fun j => mat_mul m Q21 SS a j * z j)) by (intros j Hj; rewrite <- A2 by assumption; reflexivity).
    fold (mat_vec m (mat_mul m Q21 SS) z a). rewrite mat_vec_mul. apply rsum_0. intros b Hb. rewrite (Hz b Hb). ring. }
  destruct (inverse_exists m SS HSN) as (SI & HSI).
  intros i j Hi Hj.
  set (FP := mat_mul m F P).
  set (D := fun a b => mat_mul m FP Q21 a b + - Q a b).
  assert (HD : forall b, (b < m)%nat -> D i b = 0).
  { apply (cancel_right m D SS SI i HSI). intros b Hb. unfold D. rewrite mat_mul_plus_l, mat_mul_opp_l, mat_mul_assoc.
    rewrite <- A1 by assumption.
    rewrite (mat_mul_ext m FP FP (mat_mul m Q21 SS) Z21); [|reflexivity|intros k Hk; symmetry; apply A2; assumption].
    unfold FP. rewrite mat_mul_assoc.
    rewrite (mat_mul_ext m F F (mat_mul m P Z21) Z); [ring|reflexivity|intros k Hk; symmetry; apply Z1P; assumption]. }
  assert (HY : forall b, (b < m)%nat -> (fun a b => mat_mul m FP P a b + mat_mul m G P a b + H a b) i b = 0).
  { apply (cancel_right m (fun a b => mat_mul m FP P a b + mat_mul m G P a b + H a b) Z21 V i HV). intros b Hb. rewrite !mat_mul_plus_l.
    rewrite (mat_mul_assoc m m FP P Z21), (mat_mul_assoc m m G P Z21).
    rewrite (mat_mul_ext m FP FP (mat_mul m P Z21) (mat_mul m Q21 TT)); [|reflexivity|intros k Hk; rewrite <- Z1P by assumption; apply B2; assumption].
    rewrite (mat_mul_ext m G G (mat_mul m P Z21) Z); [|reflexivity|intros k Hk; symmetry; apply Z1P; assumption].
    rewrite <- mat_mul_assoc. specialize (B1 i b Hi Hb).
    assert (K : mat_mul m (mat_mul m FP Q21) TT i b - mat_mul m Q TT i b = 0).
    { transitivity (mat_mul m D TT i b); [|apply mat_mul_0_l; exact HD]. unfold D. rewrite mat_mul_plus_l, mat_mul_opp_l. ring. }
    lra. }
  specialize (HY j Hj). cbv beta in HY. unfold FP in HY. rewrite mat_mul_assoc in HY. exact HY.
Qed.

(** Example: x^2 - (3/4) x = 0, root 3/4. *)
Definition ex_rotation (i j : nat) : R :=
  match i, j with 0%nat, 0%nat => 3/5 | 0%nat, _ => -(4/5) | _, 0%nat => 4/5 | _, _ => 3/5 end.
Definition ex_T2 (i j : nat) : R := match i, j with 0%nat, 0%nat => 3/4 | 0%nat, 1%nat => -1 | _, _ => 0 end.
Lemma quadratic_example : exists P,
    second_order_solver gauss_solve (fun _ _ _ _ => Ok (eye, ex_T2, ex_rotation, ex_rotation)) 1 (fun _ _ => 1) (fun _ _ => -(3/4)) (fun _ _ => 0) = Ok P /\
    generalized_schur 2 (companion_delta 1 (fun _ _ => 1)) (companion_xi 1 (fun _ _ => -(3/4)) (fun _ _ => 0)) eye ex_T2 ex_rotation ex_rotation /\
    splits_at 1 2 eye /\ splits_at 1 2 ex_T2 /\ P 0%nat 0%nat = 3/4.
Proof.
  assert (HS : ~ singular 1 (fun i j => ex_rotation j (1 + i)%nat)).
  { apply triangular_nonsingular; [intros i j; lia|]. intros i Hi. assert (i = 0%nat) by lia. subst. cbn. lra. }
  unfold second_order_solver, solve_columns. cbn [bind for_range_res].
  match goal with |- context [gauss_solve 1 ?A ?b] => pose proof (gauss_solve_correct 1 A b) as G end.
  destruct (gauss_solve 1 _ _) as [x|e]; [|contradiction]. destruct G as (G & _). cbn [bind].
  eexists. split; [reflexivity|]. split; [|split; [|split]].
  - split; intros i j Hi Hj; destruct i as [|[|i]]; try lia; destruct j as [|[|j]]; try lia;
      cbv -[Rplus Rmult Ropp Rinv IZR Rminus Rdiv]; lra.
  - intros i j H1 H2 H3. assert (i = 1%nat /\ j = 0%nat) as (-> & ->) by lia. reflexivity.
  - intros i j H1 H2 H3. assert (i = 1%nat /\ j = 0%nat) as (-> & ->) by lia. reflexivity.
  - specialize (G 0%nat ltac:(lia)). cbv -[Rplus Rmult Ropp Rinv IZR Rminus Rdiv] in G.
    cbn. lra.
Qed.
