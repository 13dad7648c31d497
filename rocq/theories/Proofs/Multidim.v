(** Lemmas about multidimensional_discretization. *)
From Coq Require Import Reals List Arith Lia Lra Bool.
From Verif.Base Require Import Prelude Sums Arrays.
From Verif.Model Require Import Discretization.
From Verif.Spec Require Import Markov.
From Verif.Proofs Require Import DivMod Rouwenhorst Markov.
Import ListNotations.
Open Scope R_scope.

Lemma kron_power_shape : forall d p, nrow p = ncol p ->
    nrow (kron_power d p) = (nrow p ^ d)%nat /\ ncol (kron_power d p) = (nrow p ^ d)%nat.
Proof.
  induction d as [|d IH]; intros p Hp; simpl; [split; reflexivity|].
  destruct (IH p Hp) as [-> ->]. rewrite <- Hp. split; ring.
Qed.

Lemma kron_power_succ : forall d p k l, nrow p = ncol p ->
    mget (kron_power (S d) p) k l
    = mget (kron_power d p) (k / nrow p) (l / nrow p) * mget p (k mod nrow p) (l mod nrow p).
Proof. intros d p k l Hp. simpl. rewrite <- Hp. reflexivity. Qed.

Lemma digit_last : forall N d l, digit N (S d) d l = (l mod N)%nat.
Proof.
  intros N d l. unfold digit. replace (S d - 1 - d)%nat with 0%nat by lia.
  simpl. rewrite Nat.div_1_r. reflexivity.
Qed.

Lemma digit_other : forall N d a l, N <> 0%nat -> (a < d)%nat ->
    digit N (S d) a l = digit N d a (l / N).
Proof.
  intros N d a l HN Ha. unfold digit.
  replace (S d - 1 - a)%nat with (S (d - 1 - a)) by lia.
  simpl. rewrite <- Nat.div_div by (try apply Nat.pow_nonzero; assumption). reflexivity.
Qed.

Lemma digit_lt : forall N d a l, N <> 0%nat -> (digit N d a l < N)%nat.
Proof. intros. unfold digit. apply Nat.mod_upper_bound; assumption. Qed.

Lemma pow_succ_comm : forall N d, (N ^ S d = N ^ d * N)%nat.
Proof. intros; simpl; ring. Qed.

(** Splitting a sum over joint states into the last digit and the others. *)
Lemma rsum_joint_succ : forall N d (F : nat -> nat -> R) G,
    (forall l, (l < N ^ S d)%nat -> G l = F (l / N)%nat (l mod N)%nat) ->
    rsum (N ^ S d) G
    = rsum (N ^ d) (fun a => rsum N (fun b => F a b)).
Proof.
  intros N d F G H. rewrite (rsum_ext _ _ _ H). rewrite pow_succ_comm.
  apply (rsum_prod (N ^ d) N F).
Qed.

Section Joint.
  Variable p : mat.
  Variable N : nat.
  Hypothesis Hst : stochastic N p.
  Hypothesis HN : (1 <= N)%nat.

  Let Hr : nrow p = N. Proof. destruct Hst; assumption. Qed.
  Let Hc : nrow p = ncol p. Proof. destruct Hst as (A & B & _); congruence. Qed.
  Let Hsum : forall i, (i < N)%nat -> rsum N (fun j => mget p i j) = 1.
  Proof. destruct Hst as (_ & _ & _ & H); exact H. Qed.

  Lemma kron_power_stochastic : forall d, stochastic (N ^ d) (kron_power d p).
  Proof.
    induction d as [|d IH].
    - unfold stochastic; simpl. repeat split; intros; lra.
    - rewrite pow_succ_comm. simpl. apply kron_stochastic; assumption.
  Qed.

  Lemma joint_mean1 : forall d k a (f : nat -> R),
      (k < N ^ d)%nat -> (a < d)%nat ->
      rsum (N ^ d) (fun l => mget (kron_power d p) k l * f (digit N d a l))
      = rsum N (fun j => mget p (digit N d a k) j * f j).
  Proof.
    induction d as [|d IH]; intros k a f Hk Ha; [lia|].
    rewrite pow_succ_comm in Hk.
    assert (HN0 : N <> 0%nat) by lia.
    destruct (Nat.eq_dec a d) as [->|Hne].
    - rewrite digit_last.
      rewrite (rsum_joint_succ N d (fun u v => mget (kron_power d p) (k / N) u
                 * (mget p (k mod N) v * f v))).
      2:{ intros l Hl. rewrite kron_power_succ, Hr, digit_last by assumption. ring. }
      
      rewrite (rsum_ext _ _ (fun u => mget (kron_power d p) (k / N) u
                 * rsum N (fun v => mget p (k mod N) v * f v)))
        by (intros; apply rsum_scal).
      rewrite rsum_scal_r.
      destruct (kron_power_stochastic d) as (_ & _ & _ & Hs).
      rewrite Hs by (apply div_lt_prod; assumption). ring.
    - rewrite digit_other by lia.
      rewrite <- (IH (k / N)%nat a f) by (try apply div_lt_prod; lia).
      rewrite (rsum_joint_succ N d (fun u v => mget (kron_power d p) (k / N) u
                 * f (digit N d a u) * mget p (k mod N) v)).
      2:{ intros l Hl. rewrite kron_power_succ, Hr, digit_other by (try assumption; lia). ring. }
       cbv beta. apply rsum_ext; intros u Hu.
      rewrite rsum_scal, Hsum by (apply Nat.mod_upper_bound; lia). ring.
  Qed.

  Lemma joint_mean2 : forall d k a b (f g : nat -> R),
      (k < N ^ d)%nat -> (a < d)%nat -> (b < d)%nat -> a <> b ->
      rsum (N ^ d) (fun l => mget (kron_power d p) k l * (f (digit N d a l) * g (digit N d b l)))
      = rsum N (fun j => mget p (digit N d a k) j * f j)
        * rsum N (fun j => mget p (digit N d b k) j * g j).
  Proof.
    induction d as [|d IH]; intros k a b f g Hk Ha Hb Hab; [lia|].
    rewrite pow_succ_comm in Hk.
    assert (HN0 : N <> 0%nat) by lia.
    assert (Hkd : (k / N < N ^ d)%nat) by (apply div_lt_prod; assumption).
    assert (Hlast : forall a' (f' g' : nat -> R), (a' < d)%nat ->
      rsum (N ^ S d) (fun l => mget (kron_power (S d) p) k l
                               * (f' (digit N (S d) a' l) * g' (digit N (S d) d l)))
      = rsum N (fun j => mget p (digit N (S d) a' k) j * f' j)
        * rsum N (fun j => mget p (digit N (S d) d k) j * g' j)).
    { intros a' f' g' Ha'. rewrite digit_last, digit_other by lia.
      rewrite <- (joint_mean1 d (k / N) a' f') by assumption.
      rewrite <- rsum_scal_r.
      rewrite (rsum_joint_succ N d (fun u v => mget (kron_power d p) (k / N) u
                 * f' (digit N d a' u) * (mget p (k mod N) v * g' v))).
      2:{ intros l Hl. rewrite kron_power_succ, Hr, digit_last, digit_other by (try assumption; lia). ring. }
       cbv beta. apply rsum_ext; intros u Hu. rewrite rsum_scal. reflexivity. }
    destruct (Nat.eq_dec b d) as [->|Hbd]; [apply Hlast; lia|].
    destruct (Nat.eq_dec a d) as [->|Had].
    - rewrite Rmult_comm, <- Hlast by lia. apply rsum_ext; intros; ring.
    - rewrite !digit_other by lia.
      rewrite <- (IH (k / N)%nat a b f g) by lia.
      rewrite (rsum_joint_succ N d (fun u v => mget (kron_power d p) (k / N) u
                 * (f (digit N d a u) * g (digit N d b u)) * mget p (k mod N) v)).
      2:{ intros l Hl. rewrite kron_power_succ, Hr, !digit_other by (try assumption; lia). ring. }
       cbv beta. apply rsum_ext; intros u Hu.
      rewrite rsum_scal, Hsum by (apply Nat.mod_upper_bound; lia). ring.
  Qed.
End Joint.

Lemma rouw_stochastic : forall rho N, (2 <= N)%nat -> -1 <= rho <= 1 ->
    stochastic N (Mat N N (rouw_mat ((rho + 1) / 2) ((rho + 1) / 2) N)).
Proof.
  intros rho N HN Hr. unfold stochastic; simpl. repeat split.
  - intros i j Hi Hj. apply rouw_mat_nonneg; try assumption; lra.
  - intros i Hi. apply rouw_mat_row_sum; assumption.
Qed.

Lemma rho_bounds : forall rho, 0 < 1 - rho ^ 2 -> -1 < rho < 1.
Proof. intros; split; nra. Qed.

Lemma multidim_moments : forall chol rho sigma N nodes P L,
    (2 <= N)%nat ->
    chol (patch_zero sigma) = Ok L ->
    multidimensional_discretization chol rho sigma N = Ok (nodes, P) ->
    let d := ncol sigma in
    nrow nodes = (N ^ d)%nat /\ ncol nodes = d /\ stochastic (N ^ d) P /\
    forall k, (k < N ^ d)%nat ->
      (forall i, (i < d)%nat ->
         next_mean (N ^ d) P k (fun l => mget nodes l i) = rho * mget nodes k i) /\
      (forall i i', (i < d)%nat -> (i' < d)%nat ->
         next_mean (N ^ d) P k (fun l => (mget nodes l i - rho * mget nodes k i)
                                         * (mget nodes l i' - rho * mget nodes k i'))
         = if (zero_column sigma i || zero_column sigma i')%bool then 0
           else rsum d (fun j => mget L i j * mget L i' j)).
Proof.
  intros chol rho sigma N nodes P L HN HL H d.
  unfold multidimensional_discretization in H. rewrite HL in H. simpl in H.
  destruct (rouwenhorst rho 1 N) as [[n1 p1]|e] eqn:ER; simpl in H; [|discriminate].
  injection H as <- <-. fold d. simpl nrow; simpl ncol.
  destruct (rouwenhorst_ok_inv rho 1 N n1 p1 HN ER) as (-> & -> & Hrho).
  pose proof (rho_bounds rho Hrho) as Hb.
  set (nu := sqrt ((INR N - 1) / (1 - rho ^ 2)) * 1).
  set (p1 := Mat N N (rouw_mat ((rho + 1) / 2) ((rho + 1) / 2) N)).
  assert (Hst : stochastic N p1) by (apply rouw_stochastic; [assumption|lra]).
  assert (HN1 : (1 <= N)%nat) by lia.
  split; [reflexivity|]. split; [reflexivity|].
  split; [apply kron_power_stochastic; assumption|].
  intros k Hk. unfold next_mean. simpl mget.
  set (z := linspace (- nu) nu N).
  set (y := fun l i => rsum d (fun j => mget L i j * z (digit N d j l))).
  assert (M1 : forall j, (j < d)%nat ->
     rsum (N ^ d) (fun l => mget (kron_power d p1) k l * (z (digit N d j l) - rho * z (digit N d j k))) = 0).
  { intros j Hj.
    rewrite (joint_mean1 p1 N Hst HN1 d k j (fun u => z u - rho * z (digit N d j k))) by assumption.
    rewrite (rsum_ext N _ (fun u => mget p1 (digit N d j k) u * z u
               - mget p1 (digit N d j k) u * (rho * z (digit N d j k)))) by (intros; ring).
    rewrite rsum_minus, rsum_scal_r.
    destruct Hst as (_ & _ & _ & Hs). rewrite Hs by (apply digit_lt; lia).
    unfold p1, z; simpl mget. rewrite rouw_cond_mean by (try assumption; apply digit_lt; lia). ring. }
  assert (M2 : forall j j', (j < d)%nat -> (j' < d)%nat ->
     rsum (N ^ d) (fun l => mget (kron_power d p1) k l *
        ((z (digit N d j l) - rho * z (digit N d j k)) * (z (digit N d j' l) - rho * z (digit N d j' k))))
     = if Nat.eqb j j' then 1 else 0).
  { intros j j' Hj Hj'. destruct (Nat.eqb_spec j j') as [<-|Hne].
    - rewrite (joint_mean1 p1 N Hst HN1 d k j
         (fun u => (z u - rho * z (digit N d j k)) * (z u - rho * z (digit N d j k)))) by assumption.
      rewrite (rsum_ext N _ (fun u => mget p1 (digit N d j k) u * (z u - rho * z (digit N d j k)) ^ 2))
        by (intros; ring).
      unfold p1, z; simpl mget. rewrite rouw_cond_second by (try assumption; apply digit_lt; lia).
      unfold nu. rewrite Rmult_1_r. rewrite <- Rsqr_pow2.
      pose proof (INR_pred_pos N HN).
      rewrite Rsqr_sqrt.
      + field. split; lra.
      + apply Rmult_le_pos; [lra|]. left. apply Rinv_0_lt_compat. lra.
    - rewrite (joint_mean2 p1 N Hst HN1 d k j j'
         (fun u => z u - rho * z (digit N d j k)) (fun u => z u - rho * z (digit N d j' k))) by assumption.
      rewrite <- (joint_mean1 p1 N Hst HN1 d k j (fun u => z u - rho * z (digit N d j k))) by assumption.
      rewrite M1 by assumption. ring. }
  split.
  - intros i Hi. destruct (zero_column sigma i).
    + rewrite rsum_0; [ring|]. intros; ring.
    + change (rsum (N ^ d) (fun l => mget (kron_power d p1) k l * y l i) = rho * y k i).
      assert (E : rsum (N ^ d) (fun l => mget (kron_power d p1) k l * (y l i - rho * y k i)) = 0).
      { rewrite (rsum_ext _ _ (fun l => rsum d (fun j => mget L i j * (mget (kron_power d p1) k l
             * (z (digit N d j l) - rho * z (digit N d j k)))))).
        2:{ intros l Hl. unfold y. rewrite <- rsum_scal, <- rsum_minus, <- rsum_scal.
            apply rsum_ext; intros; ring. }
        rewrite rsum_swap. apply rsum_0; intros j Hj. rewrite rsum_scal, M1 by assumption. ring. }
      rewrite (rsum_ext _ _ (fun l => mget (kron_power d p1) k l * y l i
                 - mget (kron_power d p1) k l * (rho * y k i))) in E by (intros; ring).
      rewrite rsum_minus, rsum_scal_r in E.
      destruct (kron_power_stochastic p1 N Hst d) as (_ & _ & _ & Hs).
      rewrite Hs in E by assumption. lra.
  - intros i i' Hi Hi'.
    destruct (zero_column sigma i); simpl orb; cbv iota.
    { apply rsum_0; intros; ring. }
    destruct (zero_column sigma i'); simpl orb; cbv iota.
    { apply rsum_0; intros; ring. }
    change (rsum (N ^ d) (fun l => mget (kron_power d p1) k l * ((y l i - rho * y k i) * (y l i' - rho * y k i')))
            = rsum d (fun j => mget L i j * mget L i' j)).
    rewrite (rsum_ext _ _ (fun l => rsum d (fun j => rsum d (fun j' =>
        mget L i j * mget L i' j' * (mget (kron_power d p1) k l *
        ((z (digit N d j l) - rho * z (digit N d j k)) * (z (digit N d j' l) - rho * z (digit N d j' k)))))))).
    2:{ intros l Hl. unfold y. rewrite <- !rsum_scal, <- !rsum_minus.
        rewrite <- rsum_scal_r, <- rsum_scal. apply rsum_ext; intros j Hj.
        rewrite <- !rsum_scal. apply rsum_ext; intros j' Hj'. ring. }
    rewrite rsum_swap. apply rsum_ext; intros j Hj.
    rewrite rsum_swap.
    rewrite (rsum_single d j); [|assumption|].
    + rewrite rsum_scal, M2, Nat.eqb_refl by assumption. ring.
    + intros j' Hj' Hne. rewrite rsum_scal, M2 by assumption.
      destruct (Nat.eqb_spec j j'); [congruence|ring].
Qed.

Lemma cholesky_diagonal : forall d A U,
    is_cholesky_upper d A U ->
    (forall i j, (i < d)%nat -> (j < d)%nat -> i <> j -> mget A i j = 0) ->
    forall i j, (i < d)%nat -> (j < d)%nat -> i <> j -> mget U i j = 0.
Proof.
  intros d A U (_ & _ & Htri & Hpos & Hprod) Hdiag.
  assert (H : forall n i, (i < n)%nat -> forall j, (i < d)%nat -> (j < d)%nat -> (i < j)%nat -> mget U i j = 0).
  { induction n as [|n IH]; intros i Hin j Hi Hj Hij; [lia|].
    pose proof (Hprod i j Hi Hj) as E. rewrite Hdiag in E by lia.
    rewrite (rsum_single d i) in E; [| assumption|].
    - specialize (Hpos i Hi). apply Rmult_integral in E. destruct E; [lra|assumption].
    - intros k Hk Hki. destruct (Nat.lt_trichotomy k i) as [Hlt|[->|Hgt]]; [|lia|].
      + rewrite (IH k) by lia. ring.
      + rewrite (Htri k i) by lia. ring. }
  intros i j Hi Hj Hne. destruct (Nat.lt_ge_cases i j).
  - apply (H (S i) i); lia.
  - apply Htri; lia.
Qed.

Lemma multidim_diagonal : forall chol rho sigma N nodes P L,
    (2 <= N)%nat ->
    let d := ncol sigma in
    nrow sigma = d ->
    (forall i j, (i < d)%nat -> (j < d)%nat -> i <> j -> mget sigma i j = 0) ->
    (forall i, (i < d)%nat -> 0 <= mget sigma i i) ->
    chol (patch_zero sigma) = Ok L -> is_cholesky_upper d (patch_zero sigma) L ->
    multidimensional_discretization chol rho sigma N = Ok (nodes, P) ->
    stochastic (N ^ d) P /\
    forall k, (k < N ^ d)%nat ->
      (forall i, (i < d)%nat ->
         next_mean (N ^ d) P k (fun l => mget nodes l i) = rho * mget nodes k i) /\
      (forall i i', (i < d)%nat -> (i' < d)%nat ->
         next_mean (N ^ d) P k (fun l => (mget nodes l i - rho * mget nodes k i)
                                         * (mget nodes l i' - rho * mget nodes k i'))
         = mget sigma i i').
Proof.
  intros chol rho sigma N nodes P L HN d Hsq Hdiag Hpos HL Hchol Hrun.
  destruct (multidim_moments chol rho sigma N nodes P L HN HL Hrun) as (_ & _ & Hst & Hmom).
  split; [exact Hst|]. intros k Hk. destruct (Hmom k Hk) as [Hm Hv]. split; [exact Hm|].
  intros i i' Hi Hi'. fold d in Hv. rewrite Hv by assumption.
  assert (Hz : forall j, (j < d)%nat -> zero_column sigma j = if Req_EM_T (mget sigma j j) 0 then true else false).
  { intros j Hj. unfold zero_column. rewrite (rsum_single _ j); [reflexivity|rewrite Hsq; assumption|].
    intros l Hl Hne. apply Hdiag; try assumption; rewrite <- Hsq; assumption. }
  assert (Hpd : forall a b, (a < d)%nat -> (b < d)%nat -> a <> b -> mget (patch_zero sigma) a b = 0).
  { intros a b Ha Hb Hab. simpl. destruct (Nat.eqb_spec a b); [contradiction|]. simpl. apply Hdiag; assumption. }
  pose proof (cholesky_diagonal d _ L Hchol Hpd) as HLd.
  rewrite !Hz by assumption.
  destruct (Req_EM_T (mget sigma i i) 0) as [E|E]; simpl orb; cbv iota.
  - destruct (Nat.eq_dec i i') as [<-|Hne]; [symmetry; exact E|symmetry; apply Hdiag; assumption].
  - destruct (Req_EM_T (mget sigma i' i') 0) as [E'|E']; simpl orb; cbv iota.
    + destruct (Nat.eq_dec i i') as [<-|Hne]; [contradiction|symmetry; apply Hdiag; assumption].
    + destruct (Nat.eq_dec i i') as [<-|Hne].
      * rewrite (rsum_single d i); [|assumption|].
        2:{ intros j Hj Hji. rewrite HLd by auto. ring. }
        destruct Hchol as (_ & _ & _ & _ & Hprod). specialize (Hprod i i Hi Hi).
        rewrite (rsum_single d i) in Hprod; [|assumption|].
        2:{ intros j Hj Hji. rewrite (HLd j i) by auto. ring. }
        rewrite Hprod. simpl. rewrite Nat.eqb_refl. simpl. rewrite Hz by assumption.
        destruct (Req_EM_T (mget sigma i i) 0); [contradiction|reflexivity].
      * rewrite Hdiag by assumption. apply rsum_0; intros j Hj.
        destruct (Nat.eq_dec i j) as [<-|Hij].
        -- rewrite (HLd i' i) by auto. ring.
        -- rewrite (HLd i j) by auto. ring.
Qed.

(** *** The correlated counterexample *)
Definition corr2 : mat := Mat 2 2 (fun i j => if Nat.eqb i j then 1 else 1 / 2).

Lemma corr2_posdef : sym_posdef 2 corr2.
Proof.
  unfold sym_posdef, corr2; simpl. repeat split; try reflexivity.
  - intros i j _ _. rewrite Nat.eqb_sym. reflexivity.
  - intros x (i & Hi & Hx).
    pose proof (Rle_0_sqr (x 0%nat + x 1%nat / 2)) as H1.
    pose proof (Rle_0_sqr (x 1%nat + x 0%nat / 2)) as H2. unfold Rsqr in *.
    destruct i as [|[|i]]; [| |lia].
    + assert (0 < x 0%nat * x 0%nat) by nra. nra.
    + assert (0 < x 1%nat * x 1%nat) by nra. nra.
Qed.

Lemma corr2_patch : forall i j, (i < 2)%nat -> (j < 2)%nat ->
    mget (patch_zero corr2) i j = mget corr2 i j /\ zero_column corr2 i = false.
Proof.
  intros i j Hi Hj.
  assert (Hz : forall a, (a < 2)%nat -> zero_column corr2 a = false).
  { intros a Ha. unfold zero_column. simpl.
    destruct a as [|[|a]]; [| |lia]; simpl;
      match goal with |- context [Req_EM_T ?a ?b] => destruct (Req_EM_T a b) end; [lra|reflexivity|lra|reflexivity]. }
  split; [|apply Hz; assumption]. unfold patch_zero. cbn [mget]. rewrite Hz by assumption.
  rewrite andb_false_r. reflexivity.
Qed.

Lemma corr2_wrong : forall chol L rho N,
    (2 <= N)%nat -> -1 < rho < 1 ->
    chol (patch_zero corr2) = Ok L -> is_cholesky_upper 2 (patch_zero corr2) L ->
    exists nodes P, multidimensional_discretization chol rho corr2 N = Ok (nodes, P)
      /\ forall k, (k < N ^ 2)%nat ->
           next_mean (N ^ 2) P k (fun l => (mget nodes l 0%nat - rho * mget nodes k 0%nat)
                                           * (mget nodes l 0%nat - rho * mget nodes k 0%nat))
           = 5 / 4.
Proof.
  intros chol L rho N HN Hr HL (_ & _ & Htri & Hpos & Hprod).
  destruct (rouwenhorst_succeeds rho 1 N HN Hr) as (n1 & p1 & E1).
  destruct (multidimensional_discretization chol rho corr2 N) as [[nodes P]|e] eqn:E.
  2:{ unfold multidimensional_discretization in E. rewrite HL in E; cbn [bind] in E.
      rewrite E1 in E; simpl in E. discriminate. }
  exists nodes, P. split; [reflexivity|].
  destruct (multidim_moments chol rho corr2 N nodes P L HN HL E) as (_ & _ & _ & Hmom).
  intros k Hk. destruct (Hmom k Hk) as [_ Hv].
  change (ncol corr2) with 2%nat in Hv. rewrite (Hv 0%nat 0%nat) by lia.
  destruct (corr2_patch 0 0) as [E00 Hz0]; try lia. destruct (corr2_patch 0 1) as [E01 _]; try lia.
  rewrite Hz0. simpl orb; cbv iota.
  pose proof (Hprod 0%nat 0%nat ltac:(lia) ltac:(lia)) as P00. rewrite E00 in P00.
  pose proof (Hprod 0%nat 1%nat ltac:(lia) ltac:(lia)) as P01. rewrite E01 in P01.
  pose proof (Htri 1%nat 0%nat ltac:(lia) ltac:(lia)) as T10.
  pose proof (Hpos 0%nat ltac:(lia)) as Q0.
  simpl in P00, P01 |- *. rewrite T10 in P00, P01.
  assert (mget L 0 0 = 1) by nra. rewrite H in *. nra.
Qed.

(** *** A covariance with a column summing to zero *)
Definition zsum2 : mat :=
  Mat 2 2 (fun i j => match i, j with O, O => 2 | O, _ => -2 | _, O => -2 | _, _ => 6 end).

Lemma zsum2_posdef : sym_posdef 2 zsum2.
Proof.
  unfold sym_posdef, zsum2; simpl. repeat split; try reflexivity.
  - intros i j _ _. destruct i, j; reflexivity.
  - intros x (i & Hi & Hx).
    pose proof (Rle_0_sqr (x 0%nat - x 1%nat)) as H1.
    pose proof (Rle_0_sqr (2 * x 1%nat - x 0%nat)) as H2. unfold Rsqr in *.
    destruct i as [|[|i]]; [| |lia].
    + assert (0 < x 0%nat * x 0%nat) by nra. nra.
    + assert (0 < x 1%nat * x 1%nat) by nra. nra.
Qed.

Lemma zsum2_zero : zero_column zsum2 0 = true.
Proof.
  unfold zero_column; simpl. match goal with |- context [Req_EM_T ?a ?b] => destruct (Req_EM_T a b) end; [reflexivity|lra].
Qed.

Lemma zsum2_lost : forall chol L rho N,
    (2 <= N)%nat -> -1 < rho < 1 -> chol (patch_zero zsum2) = Ok L ->
    exists nodes P, multidimensional_discretization chol rho zsum2 N = Ok (nodes, P)
      /\ forall k, mget nodes k 0%nat = 0.
Proof.
  intros chol L rho N HN Hr HL.
  destruct (rouwenhorst_succeeds rho 1 N HN Hr) as (n1 & p1 & E1).
  unfold multidimensional_discretization. rewrite HL; cbn [bind]. rewrite E1; cbn [bind].
  do 2 eexists; split; [reflexivity|]. intro k. cbn [mget]. rewrite zsum2_zero. reflexivity.
Qed.
