(** Proofs on filters. *)
From Coq Require Import String Reals List Arith Bool Lia Lra Psatz.
From Verif.Base Require Import Prelude Sums.
From Verif.Spec Require Import LinearAlgebra Filters.
From Verif.Model Require Import LinearSolve Filters.
From Verif.Proofs Require Import GaussFinal MatrixEquationsProofs.
Import ListNotations.
Open Scope R_scope.

(** Second differences as a matrix. *)
Definition dif (t i : nat) : R :=
  (if Nat.eqb i t then 1 else 0) + (if Nat.eqb i (t + 1) then -2 else 0) + (if Nat.eqb i (t + 2) then 1 else 0).

Lemma dif_apply : forall n t (x : nat -> R), (t + 2 < n)%nat ->
    rsum n (fun i => dif t i * x i) = (x (t + 2)%nat - x (t + 1)%nat) - (x (t + 1)%nat - x t).
Proof.
  intros n t x H. unfold dif.
  rewrite (rsum_ext n _ (fun i => (if Nat.eqb i t then 1 else 0) * x i + ((if Nat.eqb i (t + 1) then -2 else 0) * x i + (if Nat.eqb i (t + 2) then 1 else 0) * x i))) by (intros; ring).
  rewrite !rsum_plus.
  rewrite (rsum_single n t), (rsum_single n (t + 1)), (rsum_single n (t + 2)); try lia.
  - rewrite !Nat.eqb_refl. ring.
  - intros i _ Hi. destruct (Nat.eqb_spec i (t + 2)); [contradiction|ring].
  - intros i _ Hi. destruct (Nat.eqb_spec i (t + 1)); [contradiction|ring].
  - intros i _ Hi. destruct (Nat.eqb_spec i t); [contradiction|ring].
Qed.

(** Sum over the differences in which date [i] enters. *)
Lemma dif_column : forall N i f,
    rsum N (fun t => dif t i * f t) =
    (if Nat.ltb i N then f i else 0) + (if Nat.leb 1 i && Nat.ltb (i - 1) N then -2 * f (i - 1)%nat else 0)
    + (if Nat.leb 2 i && Nat.ltb (i - 2) N then f (i - 2)%nat else 0).
Proof.
  intros N i f. unfold dif.
  rewrite (rsum_ext N _ (fun t => (if Nat.eqb i t then 1 else 0) * f t + ((if Nat.eqb i (t + 1) then -2 else 0) * f t + (if Nat.eqb i (t + 2) then 1 else 0) * f t))) by (intros; ring).
  rewrite !rsum_plus, <- Rplus_assoc. f_equal; [f_equal|].
  - destruct (Nat.ltb_spec i N).
    + rewrite (rsum_single N i); [rewrite Nat.eqb_refl; ring|assumption|].
      intros t _ Ht. destruct (Nat.eqb_spec i t); [subst; contradiction|ring].
    + apply rsum_0. intros t Ht. destruct (Nat.eqb_spec i t); [lia|ring].
  - destruct (Nat.leb_spec 1 i); cbn [andb]; [destruct (Nat.ltb_spec (i - 1) N)|].
    + rewrite (rsum_single N (i - 1)); [|assumption|].
      * destruct (Nat.eqb_spec i (i - 1 + 1)); [ring|lia].
      * intros t _ Ht. destruct (Nat.eqb_spec i (t + 1)); [lia|ring].
    + apply rsum_0. intros t Ht. destruct (Nat.eqb_spec i (t + 1)); [lia|ring].
    + apply rsum_0. intros t Ht. destruct (Nat.eqb_spec i (t + 1)); [lia|ring].
  - destruct (Nat.leb_spec 2 i); cbn [andb]; [destruct (Nat.ltb_spec (i - 2) N)|].
    + rewrite (rsum_single N (i - 2)); [|assumption|].
      * destruct (Nat.eqb_spec i (i - 2 + 2)); [ring|lia].
      * intros t _ Ht. destruct (Nat.eqb_spec i (t + 2)); [lia|ring].
    + apply rsum_0. intros t Ht. destruct (Nat.eqb_spec i (t + 2)); [lia|ring].
    + apply rsum_0. intros t Ht. destruct (Nat.eqb_spec i (t + 2)); [lia|ring].
Qed.

(** The loop on the middle rows. *)
Lemma middle_loop : forall n vals K M, (K + 4 <= n)%nat -> length vals = 5%nat ->
    exists M', for_range_res K (fun k M => set_slice n (2 + k) k vals M) M = Ok M' /\
      forall r c, M' r c = if Nat.leb 2 r && Nat.ltb r (2 + K) && Nat.leb (r - 2) c && Nat.ltb c (r + 3) then nth (c - (r - 2)) vals 0 else M r c.
Proof.
  intros n vals. induction K as [|K IH]; intros M Hn HL.
  - exists M. split; [reflexivity|]. intros r c. destruct (Nat.leb_spec 2 r); destruct (Nat.ltb_spec r (2 + 0)); cbn [andb]; try reflexivity. lia.
  - destruct (IH M ltac:(lia) HL) as (M1 & E & V). cbn [for_range_res]. rewrite E. cbn [bind]. unfold set_slice. rewrite HL.
    destruct (Nat.leb_spec (K + 5) n); [|lia]. eexists. split; [reflexivity|]. intros r c. cbv beta. rewrite V.
    destruct (Nat.eqb_spec r (2 + K)) as [->|Hr]; cbn [andb].
    + replace (2 + K - 2)%nat with K by lia.
      destruct (Nat.leb_spec K c); destruct (Nat.ltb_spec c (K + 5)); destruct (Nat.leb_spec 2 (2 + K)); try lia;
        destruct (Nat.ltb_spec (2 + K) (2 + Datatypes.S K)); try lia; destruct (Nat.ltb_spec (2 + K) (2 + K)); try lia;
        destruct (Nat.ltb_spec c (2 + K + 3)); try lia; cbn [andb]; reflexivity.
    + destruct (Nat.leb_spec 2 r); destruct (Nat.ltb_spec r (2 + K)); destruct (Nat.ltb_spec r (2 + Datatypes.S K)); try lia; cbn [andb]; reflexivity.
Qed.

Ltac cases1 :=
  match goal with
  | |- context [Nat.eqb ?a ?b] => destruct (Nat.eqb_spec a b); try (exfalso; lia)
  | |- context [Nat.ltb ?a ?b] => destruct (Nat.ltb_spec a b); try (exfalso; lia)
  | |- context [Nat.leb ?a ?b] => destruct (Nat.leb_spec a b); try (exfalso; lia)
  end.

Lemma nth5 : forall k a b c d e, (k < 5)%nat ->
    nth k [a; b; c; d; e] 0 = if Nat.eqb k 0 then a else if Nat.eqb k 1 then b else if Nat.eqb k 2 then c else if Nat.eqb k 3 then d else e.
Proof. intros k a b c d e H. destruct k as [|[|[|[|[|k]]]]]; try lia; reflexivity. Qed.
Lemma nth4 : forall k a b c d, (k < 4)%nat ->
    nth k [a; b; c; d] 0 = if Nat.eqb k 0 then a else if Nat.eqb k 1 then b else if Nat.eqb k 2 then c else d.
Proof. intros k a b c d H. destruct k as [|[|[|[|k]]]]; try lia; reflexivity. Qed.
Lemma nth3 : forall k a b c, (k < 3)%nat ->
    nth k [a; b; c] 0 = if Nat.eqb k 0 then a else if Nat.eqb k 1 then b else c.
Proof. intros k a b c H. destruct k as [|[|[|k]]]; try lia; reflexivity. Qed.

(** The matrix is I + lam D'D. *)
Lemma hp_matrix_ok : forall n lam, (4 <= n)%nat ->
    exists M, hp_matrix n lam = Ok M /\
      forall i j, (i < n)%nat -> (j < n)%nat -> M i j = eye i j + lam * rsum (n - 2) (fun t => dif t i * dif t j).
Proof.
  intros n lam Hn. unfold hp_matrix.
  unfold set_slice at 1. cbn [length]. destruct (Nat.leb_spec (0 + 3) n); [|lia]. cbn [bind].
  unfold set_slice at 1. cbn [length]. destruct (Nat.leb_spec (0 + 4) n); [|lia]. cbn [bind].
  unfold set_slice at 1. cbn [length rev app]. destruct (Nat.leb_spec (n - 4 + 4) n); [|lia]. cbn [bind].
  unfold set_slice at 1. cbn [length]. destruct (Nat.leb_spec (n - 3 + 3) n); [|lia]. cbn [bind].
  match goal with |- context [for_range_res _ _ ?M0] =>
    destruct (middle_loop n [lam; -4 * lam; 1 + 6 * lam; -4 * lam; lam] (n - 2 - 2) M0 ltac:(lia) eq_refl) as (M & E & V) end.
  rewrite E. exists M. split; [reflexivity|]. intros i j Hi Hj. rewrite V. clear V E M.
  rewrite (dif_column (n - 2) i (fun t => dif t j)).
  destruct (Nat.leb_spec 2 i) as [G2|G2]; destruct (Nat.ltb_spec i (2 + (n - 2 - 2))) as [G3|G3]; cbn [andb].
  - (* middle rows *)
    destruct (Nat.ltb_spec i (n - 2)); [|lia]. destruct (Nat.leb_spec 1 i); [|lia]. destruct (Nat.ltb_spec (i - 1) (n - 2)); [|lia].
    destruct (Nat.ltb_spec (i - 2) (n - 2)); [|lia]. cbn [andb].
    destruct (Nat.leb_spec (i - 2) j); destruct (Nat.ltb_spec j (i + 3)); cbn [andb].
    + rewrite nth5 by lia. unfold eye, dif. repeat cases1; lra.
    + destruct (Nat.eqb_spec i (n - 1)); [lia|]. destruct (Nat.eqb_spec i (n - 2)); [lia|]. destruct (Nat.eqb_spec i 1); [lia|]. destruct (Nat.eqb_spec i 0); [lia|].
      cbn [andb]. unfold eye, dif. repeat cases1; lra.
    + destruct (Nat.eqb_spec i (n - 1)); [lia|]. destruct (Nat.eqb_spec i (n - 2)); [lia|]. destruct (Nat.eqb_spec i 1); [lia|]. destruct (Nat.eqb_spec i 0); [lia|].
      cbn [andb]. unfold eye, dif. repeat cases1; lra.
    + lia.
  - (* last two rows *)
    destruct (Nat.eqb_spec i 1); [lia|]. destruct (Nat.eqb_spec i 0); [lia|].
    destruct (Nat.ltb_spec i (n - 2)); [lia|]. destruct (Nat.leb_spec 1 i); [|lia].
    destruct (Nat.eqb_spec i (n - 1)) as [Ei|Ei].
    + destruct (Nat.ltb_spec (i - 1) (n - 2)); [lia|]. destruct (Nat.ltb_spec (i - 2) (n - 2)); [|lia]. cbn [andb].
      destruct (Nat.eqb_spec i (n - 2)); [lia|]. cbn [andb].
      destruct (Nat.leb_spec (n - 3) j); destruct (Nat.ltb_spec j (n - 3 + 3)); try lia; cbn [andb].
      * rewrite nth3 by lia. unfold eye, dif. repeat cases1; lra.
      * unfold eye, dif. repeat cases1; lra.
    + destruct (Nat.eqb_spec i (n - 2)); [|lia]. destruct (Nat.ltb_spec (i - 1) (n - 2)); [|lia]. destruct (Nat.ltb_spec (i - 2) (n - 2)); [|lia]. cbn [andb].
      destruct (Nat.leb_spec (n - 4) j); destruct (Nat.ltb_spec j (n - 4 + 4)); try lia; cbn [andb].
      * rewrite nth4 by lia. unfold eye, dif. repeat cases1; lra.
      * unfold eye, dif. repeat cases1; lra.
  - (* first two rows *)
    destruct (Nat.eqb_spec i (n - 1)); [lia|]. destruct (Nat.eqb_spec i (n - 2)); [lia|].
    destruct (Nat.ltb_spec i (n - 2)); [|lia]. cbn [andb].
    destruct (Nat.eqb_spec i 1) as [->|Hi1].
    + destruct (Nat.leb_spec 1 1); [|lia]. destruct (Nat.ltb_spec (1 - 1) (n - 2)); [|lia]. cbn [andb Nat.leb Nat.eqb].
      destruct (Nat.ltb_spec j (0 + 4)); cbn [andb].
      * rewrite nth4 by lia. unfold eye, dif. repeat cases1; lra.
      * unfold eye, dif. repeat cases1; lra.
    + destruct (Nat.eqb_spec i 0) as [->|]; [|lia]. cbn [andb Nat.leb].
      destruct (Nat.ltb_spec j (0 + 3)); cbn [andb].
      * rewrite nth3 by lia. unfold eye, dif. repeat cases1; lra.
      * unfold eye, dif. repeat cases1; lra.
  - lia.
Qed.

Lemma hp_matrix_short : forall n lam, (n < 4)%nat -> hp_matrix n lam = Err ExcValue.
Proof.
  intros n lam H. unfold hp_matrix. unfold set_slice at 1. cbn [length].
  destruct (Nat.leb_spec (0 + 3) n); cbn [bind]; [|reflexivity].
  unfold set_slice at 1. cbn [length]. destruct (Nat.leb_spec (0 + 4) n); [lia|reflexivity].
Qed.

(* ------------------------------------------------------------------ *)
(** ** The minimum *)

Definition diff2 (x : nat -> R) (t : nat) : R := (x (t + 2)%nat - x (t + 1)%nat) - (x (t + 1)%nat - x t).

(** h' (I + lam D'D) x. *)
Lemma quadratic_form : forall n lam M (x h : nat -> R), (4 <= n)%nat ->
    (forall i j, (i < n)%nat -> (j < n)%nat -> M i j = eye i j + lam * rsum (n - 2) (fun t => dif t i * dif t j)) ->
    rsum n (fun i => h i * mat_vec n M x i) = rsum n (fun i => h i * x i) + lam * rsum (n - 2) (fun t => diff2 h t * diff2 x t).
Proof.
  intros n lam M x h Hn HM.
  rewrite (rsum_ext n _ (fun i => h i * x i + lam * (h i * rsum (n - 2) (fun t => dif t i * diff2 x t)))).
  - rewrite rsum_plus, rsum_scal. do 2 f_equal.
    rewrite (rsum_ext n _ (fun i => rsum (n - 2) (fun t => dif t i * h i * diff2 x t))).
    + rewrite rsum_swap. apply rsum_ext. intros t Ht. rewrite rsum_scal_r. f_equal.
      unfold diff2. apply dif_apply. lia.
    + intros i _. rewrite <- rsum_scal. apply rsum_ext. intros t _. ring.
  - intros i Hi. unfold mat_vec.
    rewrite (rsum_ext n _ (fun j => eye i j * x j + lam * rsum (n - 2) (fun t => dif t i * (dif t j * x j)))).
    + rewrite rsum_plus, (rsum_single n i); [|exact Hi|].
      * unfold eye. rewrite Nat.eqb_refl, rsum_scal, rsum_swap.
        rewrite (rsum_ext (n - 2) _ (fun t => dif t i * diff2 x t)); [ring|].
        intros t Ht. rewrite rsum_scal. f_equal. unfold diff2. apply dif_apply. lia.
      * intros j _ Hj. unfold eye. destruct (Nat.eqb_spec i j); [subst; contradiction|ring].
    + intros j Hj. rewrite HM by assumption. rewrite Rmult_plus_distr_r. f_equal.
      rewrite Rmult_assoc. f_equal. rewrite <- rsum_scal_r. apply rsum_ext. intros t _. ring.
Qed.

Lemma rsum_sq_nonneg : forall n f, 0 <= rsum n (fun t => f t ^ 2).
Proof. intros n f. apply rsum_nonneg. intros t _. apply pow2_ge_0. Qed.

Lemma hp_expand : forall n lam y x z,
    hp_criterion n lam y z = hp_criterion n lam y x
      + 2 * (rsum n (fun t => (z t - x t) * (x t - y t)) + lam * rsum (n - 2) (fun t => diff2 (fun s => z s - x s) t * diff2 x t))
      + rsum n (fun t => (z t - x t) ^ 2) + lam * rsum (n - 2) (fun t => diff2 (fun s => z s - x s) t ^ 2).
Proof.
  intros n lam y x z. unfold hp_criterion, diff2.
  rewrite (rsum_ext n (fun t => (y t - z t) ^ 2) (fun t => (y t - x t) ^ 2 + (2 * ((z t - x t) * (x t - y t)) + (z t - x t) ^ 2))) by (intros; ring).
  rewrite (rsum_ext (n - 2) (fun t => (z (t + 2)%nat - z (t + 1)%nat - (z (t + 1)%nat - z t)) ^ 2)
     (fun t => (x (t + 2)%nat - x (t + 1)%nat - (x (t + 1)%nat - x t)) ^ 2 +
       (2 * ((z (t + 2)%nat - x (t + 2)%nat - (z (t + 1)%nat - x (t + 1)%nat) - (z (t + 1)%nat - x (t + 1)%nat - (z t - x t))) *
             (x (t + 2)%nat - x (t + 1)%nat - (x (t + 1)%nat - x t))) +
        (z (t + 2)%nat - x (t + 2)%nat - (z (t + 1)%nat - x (t + 1)%nat) - (z (t + 1)%nat - x (t + 1)%nat - (z t - x t))) ^ 2))) by (intros; ring).
  rewrite !rsum_plus, !rsum_scal. ring.
Qed.

Lemma hp_minimum : forall solve n y lam T C, (4 <= n)%nat -> 0 <= lam -> exact_solver solve ->
    hp_1d solve n y lam = Ok (T, C) -> hp_trend n lam y T /\ forall t, T t + C t = y t.
Proof.
  intros solve n y lam T C Hn Hl HE H. unfold hp_1d in H.
  destruct (hp_matrix_ok n lam Hn) as (M & EM & HM). rewrite EM in H. cbn [bind] in H.
  destruct (solve n M y) as [x|e] eqn:ES; cbn [bind] in H; [|discriminate]. injection H as <- <-.
  destruct (HE _ _ _ _ ES) as (HS & _). split; [|intros t; ring].
  intros z. rewrite (hp_expand n lam y x z).
  assert (Z : rsum n (fun t => (z t - x t) * (x t - y t)) + lam * rsum (n - 2) (fun t => diff2 (fun s => z s - x s) t * diff2 x t) = 0).
  { pose proof (quadratic_form n lam M x (fun s => z s - x s) Hn HM) as Q.
    rewrite (rsum_ext n _ (fun i => (z i - x i) * y i)) in Q by (intros i Hi; rewrite (HS i Hi); reflexivity).
    rewrite (rsum_ext n _ (fun t => (z t - x t) * x t - (z t - x t) * y t)) by (intros; ring).
    rewrite rsum_minus. lra. }
  rewrite Z. pose proof (rsum_sq_nonneg n (fun t => z t - x t)) as P1.
  pose proof (rsum_sq_nonneg (n - 2) (diff2 (fun s => z s - x s))) as P2.
  pose proof (Rmult_le_pos _ _ Hl P2) as P3.
  split; [lra|]. intros Hle t Ht.
  assert (S0 : rsum n (fun t => (z t - x t) ^ 2) = 0) by lra.
  pose proof (rsum_nonneg_0 n _ (fun i _ => pow2_ge_0 (z i - x i)) S0 t Ht) as K. cbv beta in K.
  assert (z t - x t = 0) by nra. lra.
Qed.

(** The system is regular. *)
Lemma hp_regular : forall n lam M, (4 <= n)%nat -> 0 <= lam ->
    (forall i j, (i < n)%nat -> (j < n)%nat -> M i j = eye i j + lam * rsum (n - 2) (fun t => dif t i * dif t j)) -> ~ singular n M.
Proof.
  intros n lam M Hn Hl HM (z & (i & Hi & Hne) & Hz). apply Hne.
  pose proof (quadratic_form n lam M z z Hn HM) as Q.
  rewrite rsum_0 in Q by (intros k Hk; rewrite (Hz k Hk); ring).
  assert (P2 : 0 <= rsum (n - 2) (fun t => diff2 z t * diff2 z t)) by (apply rsum_nonneg; intros; apply Rle_0_sqr).
  pose proof (Rmult_le_pos _ _ Hl P2) as P3.
  assert (P1 : forall k, (k < n)%nat -> 0 <= z k * z k) by (intros; apply Rle_0_sqr).
  pose proof (rsum_nonneg n _ P1) as P0.
  assert (S0 : rsum n (fun k => z k * z k) = 0) by lra.
  pose proof (rsum_nonneg_0 n _ P1 S0 i Hi) as K. cbv beta in K. nra.
Qed.

Lemma hp_returns : forall n y lam, (4 <= n)%nat -> 0 <= lam -> exists p, hp_1d gauss_solve n y lam = Ok p.
Proof.
  intros n y lam Hn Hl. unfold hp_1d. destruct (hp_matrix_ok n lam Hn) as (M & -> & HM). cbn [bind].
  pose proof (gauss_solve_correct n M y) as G. destruct (gauss_solve n M y) as [x|e]; [eexists; reflexivity|].
  exfalso. exact (hp_regular n lam M Hn Hl HM G).
Qed.

Lemma hp_short : forall solve n y lam, (n < 4)%nat -> hp_1d solve n y lam = Err ExcValue.
Proof. intros solve n y lam H. unfold hp_1d. rewrite hp_matrix_short by exact H. reflexivity. Qed.

Lemma hp_rows_default : forall solve n rows lam lam', hp_filter solve (Series2 n rows) lam = hp_filter solve (Series2 n rows) lam'.
Proof. intros. reflexivity. Qed.

Lemma hp_rows_1600 : forall solve n rows lam ps, (4 <= n)%nat -> exact_solver solve -> hp_filter solve (Series2 n rows) lam = Ok ps ->
    length ps = length rows /\
    forall r y T C, nth_error rows r = Some y -> nth_error ps r = Some (T, C) -> hp_trend n 1600 y T /\ forall t, T t + C t = y t.
Proof.
  intros solve n rows lam ps Hn HE H. unfold hp_filter in H. destruct rows as [|y0 rows]; [discriminate|].
  revert H. generalize (y0 :: rows) as l. clear y0 rows. intros l. revert ps. induction l as [|y l IH]; intros ps H.
  - injection H as <-. split; [reflexivity|]. intros r y T C Hr. destruct r; discriminate.
  - cbn [hp_rows] in H. destruct (hp_1d solve n y 1600) as [p|e] eqn:E; cbn [bind] in H; [|discriminate].
    destruct (hp_rows solve n l 1600) as [ps'|e] eqn:E'; cbn [bind] in H; [|discriminate]. injection H as <-.
    destruct (IH ps' eq_refl) as (L & V). split; [cbn; congruence|]. intros r y' T C Hr Hp. destruct r as [|r]; cbn in Hr, Hp.
    + injection Hr as ->. injection Hp as ->. apply (hp_minimum solve n y' 1600 T C Hn ltac:(lra) HE E).
    + exact (V r y' T C Hr Hp).
Qed.

(** An instance where the default is not the requested filter: lam = 0 leaves the series unchanged. *)
Definition bump (t : nat) : R := if Nat.eqb t 1 then 1 else 0.
Lemma hp_rows_wrong : forall solve ps, exact_solver solve -> hp_filter solve (Series2 4 [bump]) 0 = Ok ps ->
    exists T C, nth_error ps 0 = Some (T, C) /\ ~ hp_trend 4 0 bump T.
Proof.
  intros solve ps HE H. destruct (hp_rows_1600 solve 4 [bump] 0 ps ltac:(lia) HE H) as (L & V).
  destruct ps as [|(T, C) ps]; [discriminate|]. exists T, C. split; [reflexivity|]. intros K.
  destruct (V 0%nat bump T C eq_refl eq_refl) as (M & _).
  (* the trend for lam = 0 is the series itself *)
  assert (E : forall t, (t < 4)%nat -> bump t = T t).
  { destruct (K bump) as (K1 & K2). apply K2.
    apply Rle_trans with 0.
    - unfold hp_criterion. rewrite rsum_0 by (intros; ring). lra.
    - unfold hp_criterion. rewrite Rmult_0_l, Rplus_0_r. apply rsum_sq_nonneg. }
  (* but it does not minimise for lam = 1600 *)
  destruct (M (fun _ => 0)) as (M1 & _). unfold hp_criterion in M1. cbn -[INR IZR] in M1.
  rewrite <- (E 0%nat), <- (E 1%nat), <- (E 2%nat), <- (E 3%nat) in M1 by lia. unfold bump in M1. cbn in M1. lra.
Qed.

(* ------------------------------------------------------------------ *)
(** ** Band-pass filter *)

Lemma bp_symmetric : forall k w1 w2 i, (i <= 2 * k)%nat -> bp_weights k w1 w2 (2 * k - i) = bp_weights k w1 w2 i.
Proof.
  intros k w1 w2 i Hi. unfold bp_weights. f_equal. unfold bp_raw.
  destruct (Nat.eqb_spec (2 * k - i) k); destruct (Nat.eqb_spec i k); try lia; [reflexivity|].
  destruct (Nat.ltb_spec k (2 * k - i)); destruct (Nat.ltb_spec k i); try lia.
  - replace (2 * k - i - k)%nat with (k - i)%nat by lia. reflexivity.
  - replace (k - (2 * k - i))%nat with (i - k)%nat by lia. reflexivity.
Qed.

Lemma bp_sum : forall k w1 w2, rsum (2 * k + 1) (bp_weights k w1 w2) = 0.
Proof.
  intros k w1 w2. unfold bp_weights. rewrite rsum_minus, rsum_const. field.
  apply not_0_INR. lia.
Qed.

Lemma bp_moment : forall k w1 w2, rsum (2 * k + 1) (fun i => bp_weights k w1 w2 i * (INR k - INR i)) = 0.
Proof.
  intros k w1 w2. set (s := rsum _ _). assert (H : s = - s); [|lra]. unfold s at 1.
  rewrite rsum_rev. unfold s. rewrite <- rsum_opp. apply rsum_ext. intros i Hi.
  replace (2 * k + 1 - 1 - i)%nat with (2 * k - i)%nat by lia. rewrite bp_symmetric by lia.
  rewrite minus_INR by lia. rewrite mult_INR. cbn [INR]. ring.
Qed.

Lemma bp_long : forall k w1 w2 n y len out, (2 * k < n)%nat -> bandpass k w1 w2 n y = Ok (len, out) ->
    len = (n - 2 * k)%nat /\ forall t, out t = rsum (2 * k + 1) (fun i => bp_weights k w1 w2 i * y (t + 2 * k - i)%nat).
Proof.
  intros k w1 w2 n y len out Hn H. unfold bandpass in H. destruct (_ || _); [discriminate|].
  apply Ok_inj in H. unfold conv_valid in H.
  destruct (Nat.eqb_spec (2 * k + 1) 0); [lia|]. destruct (Nat.eqb_spec n 0); [lia|]. cbn [orb] in H.
  destruct (Nat.leb_spec (2 * k + 1) n); [|lia]. apply pair_equal_spec in H. destruct H as (<- & <-).
  split; [lia|]. intros t. apply rsum_ext. intros i _. replace (2 * k + 1 - 1)%nat with (2 * k)%nat by lia. reflexivity.
Qed.

Lemma bp_linear_trend : forall k w1 w2 n y len out, (2 * k < n)%nat -> bandpass k w1 w2 n y = Ok (len, out) ->
    forall a b, (forall t, (t < n)%nat -> y t = a + b * INR t) -> forall t, (t < len)%nat -> out t = 0.
Proof.
  intros k w1 w2 n y len out Hn H a b Hy t Ht. destruct (bp_long k w1 w2 n y len out Hn H) as (-> & ->).
  rewrite (rsum_ext _ _ (fun i => (a + b * (INR t + INR k)) * bp_weights k w1 w2 i + b * (bp_weights k w1 w2 i * (INR k - INR i)))).
  - rewrite rsum_plus, !rsum_scal, bp_sum, bp_moment. ring.
  - intros i Hi. rewrite Hy by lia. rewrite minus_INR by lia. rewrite plus_INR, mult_INR. cbn [INR]. ring.
Qed.

Lemma hp_filter_1d : forall solve n y lam ps, (4 <= n)%nat -> 0 <= lam -> exact_solver solve ->
    hp_filter solve (Series1 n y) lam = Ok ps ->
    exists T C, ps = [(T, C)] /\ hp_trend n lam y T /\ forall t, T t + C t = y t.
Proof.
  intros solve n y lam ps Hn Hl HE H. unfold hp_filter in H.
  destruct (hp_1d solve n y lam) as [[T C]|e] eqn:E; cbn [bind] in H; [|discriminate]. injection H as <-.
  exists T, C. split; [reflexivity|]. exact (hp_minimum solve n y lam T C Hn Hl HE E).
Qed.

Lemma hp_filter_returns : forall n y lam, (4 <= n)%nat -> 0 <= lam -> exists ps, hp_filter gauss_solve (Series1 n y) lam = Ok ps.
Proof. intros n y lam Hn Hl. unfold hp_filter. destruct (hp_returns n y lam Hn Hl) as (p & ->). eexists. reflexivity. Qed.

Lemma hp_filter_short : forall solve n y lam, (n < 4)%nat -> hp_filter solve (Series1 n y) lam = Err ExcValue.
Proof. intros solve n y lam H. unfold hp_filter. rewrite hp_short by exact H. reflexivity. Qed.

Lemma hp_rows_return : forall n rows lam, (4 <= n)%nat -> rows <> [] -> exists ps, hp_filter gauss_solve (Series2 n rows) lam = Ok ps.
Proof.
  intros n rows lam Hn Hr. destruct rows as [|y0 rows]; [contradiction|]. unfold hp_filter. generalize (y0 :: rows) as l.
  induction l as [|y l IH]; [eexists; reflexivity|]. cbn [hp_rows].
  destruct (hp_returns n y 1600 Hn ltac:(lra)) as (p & ->). cbn [bind]. destruct IH as (ps & ->). eexists. reflexivity.
Qed.

(** A linear trend is its own trend, for every lam. *)
Lemma hp_linear : forall n lam a b T, (4 <= n)%nat -> 0 <= lam -> hp_trend n lam (fun t => a + b * INR t) T ->
    forall t, (t < n)%nat -> T t = a + b * INR t.
Proof.
  intros n lam a b T Hn Hl H t Ht. destruct (H (fun t => a + b * INR t)) as (H1 & H2). symmetry. apply H2; [|exact Ht].
  unfold hp_criterion at 1. rewrite rsum_0 by (intros; ring).
  rewrite rsum_0 by (intros; rewrite !plus_INR; cbn [INR]; ring).
  unfold hp_criterion. pose proof (rsum_sq_nonneg n (fun t => a + b * INR t - T t)).
  pose proof (rsum_sq_nonneg (n - 2) (diff2 T)) as P2. pose proof (Rmult_le_pos _ _ Hl P2) as P3. unfold diff2 in P3. lra.
Qed.

(** Grouping the dates around the centre. *)
Lemma rsum_centre : forall k f, rsum (2 * k + 1) f = f k + rsum k (fun j => f (k - 1 - j)%nat + f (k + 1 + j)%nat).
Proof.
  intros k f. replace (2 * k + 1)%nat with (k + (1 + k))%nat by lia. rewrite rsum_split, (rsum_split 1 k).
  rewrite rsum_plus, (rsum_rev k f).
  cbn [rsum]. rewrite Nat.add_0_r.
  rewrite (rsum_ext k (fun i => f (k + (1 + i))%nat) (fun j => f (k + 1 + j)%nat)) by (intros; f_equal; lia). ring.
Qed.

Lemma bp_spec : forall k w1 w2 n y len out, (2 * k < n)%nat -> bandpass k w1 w2 n y = Ok (len, out) ->
    len = (n - 2 * k)%nat /\
    exists (w : nat -> R) (c : R),
      w 0%nat = 2 / w1 - 2 / w2 - c /\
      (forall j, (1 <= j)%nat -> w j = (sin (2 * PI * INR j / w1) - sin (2 * PI * INR j / w2)) / (PI * INR j) - c) /\
      w 0%nat + 2 * rsum k (fun j => w (Datatypes.S j)) = 0 /\
      forall t, (t < len)%nat ->
        out t = w 0%nat * y (t + k)%nat + rsum k (fun j => w (Datatypes.S j) * (y (t + k - Datatypes.S j)%nat + y (t + k + Datatypes.S j)%nat)).
Proof.
  intros k w1 w2 n y len out Hn H.
  assert (HW : w1 <> 0 /\ w2 <> 0).
  { unfold bandpass in H. destruct (Req_EM_T w1 0); [discriminate|]. destruct (Req_EM_T w2 0); [discriminate|]. split; assumption. }
  destruct HW as (W1 & W2). destruct (bp_long k w1 w2 n y len out Hn H) as (EL & EO). split; [exact EL|].
  set (c := rsum (2 * k + 1) (bp_raw k w1 w2) / INR (2 * k + 1)).
  set (w := fun j => (if Nat.eqb j 0 then 2 / w1 - 2 / w2 else (sin (2 * PI * INR j / w1) - sin (2 * PI * INR j / w2)) / (PI * INR j)) - c).
  assert (HP : PI <> 0) by (pose proof PI_RGT_0; lra).
  assert (B0 : bp_weights k w1 w2 k = w 0%nat).
  { unfold bp_weights, w. fold c. unfold bp_raw. rewrite Nat.eqb_refl. cbn [Nat.eqb]. field. repeat split; assumption. }
  assert (BJ : forall j i, (i = k + Datatypes.S j \/ (i + Datatypes.S j = k))%nat -> bp_weights k w1 w2 i = w (Datatypes.S j)).
  { intros j i Hi. unfold bp_weights, w. fold c. unfold bp_raw. destruct (Nat.eqb_spec i k); [lia|]. cbn [Nat.eqb].
    assert (E : forall q, 1 / (PI * INR (Datatypes.S q)) * (sin (PI * 2 / w1 * INR (Datatypes.S q)) - sin (PI * 2 / w2 * INR (Datatypes.S q))) =
              (sin (2 * PI * INR (Datatypes.S q) / w1) - sin (2 * PI * INR (Datatypes.S q) / w2)) / (PI * INR (Datatypes.S q))).
    { intros q. replace (PI * 2 / w1 * INR (Datatypes.S q)) with (2 * PI * INR (Datatypes.S q) / w1) by (field; assumption).
      replace (PI * 2 / w2 * INR (Datatypes.S q)) with (2 * PI * INR (Datatypes.S q) / w2) by (field; assumption).
      field. split; [apply not_0_INR; lia|assumption]. }
    destruct (Nat.ltb_spec k i).
    - replace (i - k)%nat with (Datatypes.S j) by lia. rewrite E. reflexivity.
    - replace (k - i)%nat with (Datatypes.S j) by lia. rewrite E. reflexivity. }
  exists w, c. split; [reflexivity|]. split.
  - intros j Hj. unfold w. destruct (Nat.eqb_spec j 0); [lia|reflexivity].
  - split.
    + pose proof (bp_sum k w1 w2) as Q. rewrite rsum_centre, B0 in Q.
      rewrite (rsum_ext k _ (fun j => 2 * w (Datatypes.S j))) in Q.
      * rewrite rsum_scal in Q. exact Q.
      * intros j Hj. rewrite (BJ j (k - 1 - j)%nat), (BJ j (k + 1 + j)%nat) by lia. ring.
    + intros t Ht. rewrite EO, rsum_centre, B0. f_equal.
      * do 2 f_equal. lia.
      * apply rsum_ext. intros j Hj. rewrite (BJ j (k - 1 - j)%nat), (BJ j (k + 1 + j)%nat) by lia.
        replace (t + 2 * k - (k - 1 - j))%nat with (t + k + Datatypes.S j)%nat by lia.
        replace (t + 2 * k - (k + 1 + j))%nat with (t + k - Datatypes.S j)%nat by lia. ring.
Qed.
