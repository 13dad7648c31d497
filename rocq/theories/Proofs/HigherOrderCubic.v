(** Third-order conditions make the residuals of order four. *)
From Coq Require Import Reals List Arith Lia Lra.
From Verif.Base Require Import Prelude Sums.
From Verif.Spec Require Import LinearAlgebra HigherOrder.
From Verif.Proofs Require Import Jets HigherOrderAlgebra.
Open Scope R_scope.

(** ** Trilinear maps *)
Lemma tri_ext : forall n m p A B u v w u' v' w' i,
    (forall j k l, (j < n)%nat -> (k < m)%nat -> (l < p)%nat -> A i j k l = B i j k l) ->
    (forall j, (j < n)%nat -> u j = u' j) -> (forall j, (j < m)%nat -> v j = v' j) -> (forall j, (j < p)%nat -> w j = w' j) ->
    tri n m p A u v w i = tri n m p B u' v' w' i.
Proof.
  intros n m p A B u v w u' v' w' i HA Hu Hv Hw. apply rsum_ext. intros j Hj. apply rsum_ext. intros k Hk. apply rsum_ext. intros l Hl.
  rewrite HA, Hu, Hv, Hw by assumption. reflexivity.
Qed.
Lemma tri_ext_v : forall n m p A u v w u' v' w' i,
    (forall j, (j < n)%nat -> u j = u' j) -> (forall j, (j < m)%nat -> v j = v' j) -> (forall j, (j < p)%nat -> w j = w' j) ->
    tri n m p A u v w i = tri n m p A u' v' w' i.
Proof. intros. apply tri_ext; auto. Qed.
Lemma tri_plus_1 : forall n m p A c u u' v w i, tri n m p A (fun j => u j + c * u' j) v w i = tri n m p A u v w i + c * tri n m p A u' v w i.
Proof.
  intros. unfold tri. rewrite <- rsum_scal, <- rsum_plus. apply rsum_ext. intros. rewrite <- rsum_scal, <- rsum_plus. apply rsum_ext. intros.
  rewrite <- rsum_scal, <- rsum_plus. apply rsum_ext. intros. ring.
Qed.
Lemma tri_plus_2 : forall n m p A c u v v' w i, tri n m p A u (fun j => v j + c * v' j) w i = tri n m p A u v w i + c * tri n m p A u v' w i.
Proof.
  intros. unfold tri. rewrite <- rsum_scal, <- rsum_plus. apply rsum_ext. intros. rewrite <- rsum_scal, <- rsum_plus. apply rsum_ext. intros.
  rewrite <- rsum_scal, <- rsum_plus. apply rsum_ext. intros. ring.
Qed.
Lemma tri_plus_3 : forall n m p A c u v w w' i, tri n m p A u v (fun j => w j + c * w' j) i = tri n m p A u v w i + c * tri n m p A u v w' i.
Proof.
  intros. unfold tri. rewrite <- rsum_scal, <- rsum_plus. apply rsum_ext. intros. rewrite <- rsum_scal, <- rsum_plus. apply rsum_ext. intros.
  rewrite <- rsum_scal, <- rsum_plus. apply rsum_ext. intros. ring.
Qed.
Lemma tri_swap_12 : forall n p A u v w i, (forall j k l, (j < n)%nat -> (k < n)%nat -> (l < p)%nat -> A i j k l = A i k j l) ->
    tri n n p A u v w i = tri n n p A v u w i.
Proof.
  intros n p A u v w i H. unfold tri. rewrite rsum_swap. apply rsum_ext. intros j Hj. apply rsum_ext. intros k Hk. apply rsum_ext. intros l Hl.
  rewrite (H k j) by assumption. ring.
Qed.
Lemma tri_swap_23 : forall n p A u v w i, (forall j k l, (j < p)%nat -> (k < n)%nat -> (l < n)%nat -> A i j k l = A i j l k) ->
    tri p n n A u v w i = tri p n n A u w v i.
Proof.
  intros n p A u v w i H. unfold tri. apply rsum_ext. intros j Hj. rewrite rsum_swap. apply rsum_ext. intros k Hk. apply rsum_ext. intros l Hl.
  rewrite (H j l k) by assumption. ring.
Qed.

Section Mean.
  Variables (M : nat) (p : vector).
  Hypothesis Hp : rsum M p = 1.
  Let mean := mean M p.

  Lemma mean_0 : forall (u : nat -> vector) j, (forall k, (k < M)%nat -> u k j = 0) -> mean u j = 0.
  Proof. intros u j H. apply rsum_0. intros k Hk. rewrite H by exact Hk. ring. Qed.

  Lemma mean_tri_1 : forall n m q A u v w i, mean (fun k => tri n m q A (u k) v w) i = tri n m q A (mean u) v w i.
  Proof.
    intros n m q A u v w i.
    transitivity (mean (fun k => lin n (fun i j => rsum m (fun a => rsum q (fun b => A i j a b * v a * w b))) (u k)) i).
    - apply mean_ext. intros k _. unfold lin, tri. apply rsum_ext. intros j _. rewrite <- rsum_scal_r. apply rsum_ext. intros a _.
      rewrite <- rsum_scal_r. apply rsum_ext. intros. ring.
    - unfold mean. rewrite mean_lin. unfold lin, tri. apply rsum_ext. intros j _. rewrite <- rsum_scal_r. apply rsum_ext. intros a _.
      rewrite <- rsum_scal_r. apply rsum_ext. intros. ring.
  Qed.

  (** Mean of a cubic map at a + mu b_k. *)
  Lemma mean_cubic : forall n A a mu b i,
      (forall j k l, (j < n)%nat -> (k < n)%nat -> (l < n)%nat -> A i j k l = A i k j l /\ A i j k l = A i j l k) ->
      (forall j, (j < n)%nat -> mean b j = 0) -> mean (fun k => tri n n n A (b k) (b k) (b k)) i = 0 ->
      mean (fun k => tri n n n A (fun j => a j + mu * b k j) (fun j => a j + mu * b k j) (fun j => a j + mu * b k j)) i
      = tri n n n A a a a i + 3 * mu ^ 2 * mean (fun k => tri n n n A a (b k) (b k)) i.
  Proof.
    intros n A a mu b i Hs Hb H3.
    assert (S12 : forall u v w, tri n n n A u v w i = tri n n n A v u w i) by (intros; apply tri_swap_12; intros; apply Hs; assumption).
    assert (S23 : forall u v w, tri n n n A u v w i = tri n n n A u w v i) by (intros; apply tri_swap_23; intros; apply Hs; assumption).
    transitivity (mean (fun k i => tri n n n A a a a i + (3 * mu * tri n n n A (b k) a a i + (3 * mu ^ 2 * tri n n n A a (b k) (b k) i
                                   + mu ^ 3 * tri n n n A (b k) (b k) (b k) i))) i).
    - apply mean_ext. intros k _. rewrite !tri_plus_1, !tri_plus_2, !tri_plus_3.
      rewrite (S12 a (b k) a), (S23 a a (b k)), (S12 a (b k) a), (S12 (b k) a (b k)), (S23 (b k) (b k) a), (S12 (b k) a (b k)). ring.
    - unfold mean in *. rewrite (mean_plus M p (fun _ => tri n n n A a a a)), mean_const by exact Hp.
      rewrite (mean_plus M p (fun k i => 3 * mu * tri n n n A (b k) a a i)), (mean_scal M p (3 * mu) (fun k => tri n n n A (b k) a a)).
      change (HigherOrderAlgebra.mean M p (fun k => tri n n n A (b k) a a) i) with (mean (fun k => tri n n n A (b k) a a) i). rewrite mean_tri_1.
      rewrite (mean_plus M p (fun k i => 3 * mu ^ 2 * tri n n n A a (b k) (b k) i)), (mean_scal M p (3 * mu ^ 2) (fun k => tri n n n A a (b k) (b k))).
      rewrite (mean_scal M p (mu ^ 3) (fun k => tri n n n A (b k) (b k) (b k))), H3.
      assert (E : tri n n n A (mean b) a a i = 0).
      { apply rsum_0. intros j Hj. apply rsum_0. intros. apply rsum_0. intros. unfold mean. rewrite Hb by exact Hj. ring. }
      rewrite E. ring.
  Qed.

  (** Mean of a bilinear map at a + mu b_k and A + mu B_k + mu^2 C_k. *)
  Lemma mean_mixed : forall n m Q a mu b a0 b0 c0 i,
      (forall j, (j < n)%nat -> mean b j = 0) -> (forall j, (j < m)%nat -> mean b0 j = 0) -> mean (fun k => bil n m Q (b k) (c0 k)) i = 0 ->
      mean (fun k => bil n m Q (fun j => a j + mu * b k j) (fun j => a0 j + (mu * b0 k j + mu ^ 2 * c0 k j))) i
      = bil n m Q a a0 i + mu ^ 2 * (mean (fun k => bil n m Q (b k) (b0 k)) i + bil n m Q a (mean c0) i).
  Proof.
    intros n m Q a mu b a0 b0 c0 i Hb Hb0 H3.
    transitivity (mean (fun k i => bil n m Q a a0 i + (mu * bil n m Q a (b0 k) i + (mu ^ 2 * bil n m Q a (c0 k) i + (mu * bil n m Q (b k) a0 i
                                   + (mu ^ 2 * bil n m Q (b k) (b0 k) i + mu ^ 3 * bil n m Q (b k) (c0 k) i))))) i).
    - apply mean_ext. intros k _. rewrite bil_plus_l, !bil_plus_r, !bil_scal_r, !bil_scal_l. ring.
    - unfold mean in *. rewrite (mean_plus M p (fun _ => bil n m Q a a0)), mean_const by exact Hp.
      rewrite (mean_plus M p (fun k i => mu * bil n m Q a (b0 k) i)), (mean_scal M p mu (fun k => bil n m Q a (b0 k))), mean_bil_r.
      rewrite (mean_plus M p (fun k i => mu ^ 2 * bil n m Q a (c0 k) i)), (mean_scal M p (mu ^ 2) (fun k => bil n m Q a (c0 k))), mean_bil_r.
      rewrite (mean_plus M p (fun k i => mu * bil n m Q (b k) a0 i)), (mean_scal M p mu (fun k => bil n m Q (b k) a0)), mean_bil_l.
      rewrite (mean_plus M p (fun k i => mu ^ 2 * bil n m Q (b k) (b0 k) i)), (mean_scal M p (mu ^ 2) (fun k => bil n m Q (b k) (b0 k))).
      rewrite (mean_scal M p (mu ^ 3) (fun k => bil n m Q (b k) (c0 k))), H3.
      assert (E1 : bil n m Q a (HigherOrderAlgebra.mean M p b0) i = 0).
      { apply rsum_0. intros j Hj. apply rsum_0. intros l Hl. rewrite Hb0 by exact Hl. ring. }
      assert (E2 : bil n m Q (HigherOrderAlgebra.mean M p b) a0 i = 0).
      { apply rsum_0. intros j Hj. apply rsum_0. intros l Hl. rewrite Hb by exact Hj. ring. }
      rewrite E1, E2. ring.
  Qed.
End Mean.

(** ** Maps of the shocks *)
Section Moments.
  Variables (M n_e : nat) (p : vector) (eps : nat -> vector).
  Hypothesis Hmean : forall j, (j < n_e)%nat -> rsum M (fun k => p k * eps k j) = 0.
  Hypothesis Hthird : forall a b c, (a < n_e)%nat -> (b < n_e)%nat -> (c < n_e)%nat -> rsum M (fun k => p k * (eps k a * eps k b * eps k c)) = 0.

  Definition linear_map (n : nat) (T : vector -> vector) : Prop := exists B, forall e j, (j < n)%nat -> T e j = lin n_e B e j.
  Definition quadratic_map (n : nat) (T : vector -> vector) : Prop :=
    exists Q c, forall e j, (j < n)%nat -> T e j = c j + bil n_e n_e Q e e j.

  Lemma third_product : forall (x : vector) (y : nat -> nat -> R),
      rsum M (fun k => p k * (rsum n_e (fun a => x a * eps k a) * rsum n_e (fun b => rsum n_e (fun c => y b c * eps k b * eps k c)))) = 0.
  Proof.
    intros x y.
    rewrite (rsum_ext M _ (fun k => rsum n_e (fun a => rsum n_e (fun b => rsum n_e (fun c => x a * y b c * (p k * (eps k a * eps k b * eps k c))))))).
    - rewrite rsum_swap. apply rsum_0. intros a Ha. rewrite rsum_swap. apply rsum_0. intros b Hb. rewrite rsum_swap. apply rsum_0. intros c Hc.
      rewrite rsum_scal, Hthird by assumption. ring.
    - intros k _. rewrite <- rsum_scal_r, <- rsum_scal. apply rsum_ext. intros a _. rewrite <- !rsum_scal. apply rsum_ext. intros b _.
      rewrite <- !rsum_scal. apply rsum_ext. intros. ring.
  Qed.

  Lemma mean_linear : forall n T j, linear_map n T -> (j < n)%nat -> mean M p (fun k => T (eps k)) j = 0.
  Proof.
    intros n T j (B & HB) Hj. unfold mean.
    rewrite (rsum_ext M _ (fun k => p k * lin n_e B (eps k) j)) by (intros; rewrite HB by exact Hj; reflexivity).
    change (mean M p (fun k => lin n_e B (eps k)) j = 0). rewrite mean_lin. apply lin_zero. intros l Hl. apply Hmean. exact Hl.
  Qed.
  Lemma mean_linear_quadratic : forall n m Q T U i, linear_map n T -> quadratic_map m U ->
      mean M p (fun k => bil n m Q (T (eps k)) (U (eps k))) i = 0.
  Proof.
    intros n m Q T U i HT (QU & c & HU).
    transitivity (mean M p (fun k i => bil n m Q (T (eps k)) c i + bil n m Q (T (eps k)) (bil n_e n_e QU (eps k) (eps k)) i) i).
    { apply mean_ext. intros k _. rewrite <- bil_plus_r. apply bil_ext_v; [reflexivity|]. intros j Hj. apply HU. exact Hj. }
    rewrite (mean_plus M p (fun k => bil n m Q (T (eps k)) c)), mean_bil_l.
    assert (E : bil n m Q (mean M p (fun k => T (eps k))) c i = 0).
    { apply rsum_0. intros j Hj. apply rsum_0. intros l Hl. rewrite (mean_linear n T) by assumption. ring. }
    rewrite E, Rplus_0_l. destruct HT as (B & HB). unfold mean, bil at 1.
    rewrite (rsum_ext M _ (fun k => rsum n (fun j => rsum m (fun l => Q i j l * (p k * (rsum n_e (fun a => B j a * eps k a)
        * rsum n_e (fun b => rsum n_e (fun c => QU l b c * eps k b * eps k c)))))))).
    - rewrite rsum_swap. apply rsum_0. intros j Hj. rewrite rsum_swap. apply rsum_0. intros l Hl. rewrite rsum_scal.
      rewrite (third_product (B j) (QU l)). ring.
    - intros k _. rewrite <- rsum_scal. apply rsum_ext. intros j Hj. rewrite <- rsum_scal. apply rsum_ext. intros l Hl.
      rewrite HB by exact Hj. unfold lin, bil. ring.
  Qed.
  Lemma mean_linear_cubic : forall n Q T i, linear_map n T -> mean M p (fun k => tri n n n Q (T (eps k)) (T (eps k)) (T (eps k))) i = 0.
  Proof.
    intros n Q T i (B & HB). unfold mean, tri.
    rewrite (rsum_ext M _ (fun k => rsum n (fun j => rsum n (fun l => rsum n (fun q => Q i j l q * (p k * (rsum n_e (fun a => B j a * eps k a)
        * rsum n_e (fun b => rsum n_e (fun c => B l b * B q c * eps k b * eps k c))))))))).
    - rewrite rsum_swap. apply rsum_0. intros j Hj. rewrite rsum_swap. apply rsum_0. intros l Hl. rewrite rsum_swap. apply rsum_0. intros q Hq.
      rewrite rsum_scal. rewrite (third_product (B j) (fun b c => B l b * B q c)). ring.
    - intros k _. rewrite <- rsum_scal. apply rsum_ext. intros j Hj. rewrite <- rsum_scal. apply rsum_ext. intros l Hl. rewrite <- rsum_scal. apply rsum_ext. intros q Hq.
      rewrite !HB by assumption. unfold lin.
      rewrite (rsum_ext n_e (fun b => rsum n_e (fun c => B l b * B q c * eps k b * eps k c)) (fun b => B l b * eps k b * rsum n_e (fun c => B q c * eps k c)))
        by (intros; rewrite <- rsum_scal; apply rsum_ext; intros; ring).
      rewrite rsum_scal_r. ring.
  Qed.

  Lemma linear_zero : forall n, linear_map n (fun _ => zero).
  Proof. intros n. exists (fun _ _ => 0). intros. unfold zero, lin. rewrite rsum_0; [reflexivity|]. intros. ring. Qed.
  Lemma linear_id : linear_map n_e (fun e => e).
  Proof.
    exists eye. intros e j Hj. unfold lin. rewrite (rsum_single n_e j) by (exact Hj || (intros l _ Hne; unfold eye; destruct (Nat.eqb_spec j l); [congruence|ring])).
    unfold eye. rewrite Nat.eqb_refl. ring.
  Qed.
  Lemma linear_lin : forall n m A T, linear_map n T -> linear_map m (fun e => lin n A (T e)).
  Proof.
    intros n m A T (B & HB). exists (fun i a => rsum n (fun j => A i j * B j a)). intros e i _. unfold lin.
    rewrite (rsum_ext n _ (fun j => rsum n_e (fun a => A i j * B j a * e a))).
    - rewrite rsum_swap. apply rsum_ext. intros a _. rewrite rsum_scal_r. reflexivity.
    - intros j Hj. rewrite HB by exact Hj. unfold lin. rewrite <- rsum_scal. apply rsum_ext. intros. ring.
  Qed.
  Lemma linear_glue : forall (n m : nat) T U, linear_map n T -> linear_map m U -> linear_map (n + m) (fun e => glue n (T e) (U e)).
  Proof.
    intros n m T U (B & HB) (C & HC). exists (fun j a => if Nat.ltb j n then B j a else C (j - n)%nat a). intros e j Hj. unfold glue, lin.
    destruct (Nat.ltb_spec j n); [apply HB; lia|apply HC; lia].
  Qed.
  Lemma quadratic_const : forall n c, quadratic_map n (fun _ => c).
  Proof. intros n c. exists (fun _ _ _ => 0), c. intros. unfold bil. rewrite rsum_0; [ring|]. intros. apply rsum_0. intros. ring. Qed.
  Lemma quadratic_plus : forall n T U, quadratic_map n T -> quadratic_map n U -> quadratic_map n (fun e j => T e j + U e j).
  Proof.
    intros n T U (Q & c & H) (Q' & c' & H'). exists (fun i a b => Q i a b + Q' i a b), (fun j => c j + c' j). intros e j Hj. rewrite H, H' by exact Hj.
    unfold bil. rewrite (rsum_ext n_e (fun a => rsum n_e (fun b => (Q j a b + Q' j a b) * e a * e b))
        (fun a => rsum n_e (fun b => Q j a b * e a * e b) + rsum n_e (fun b => Q' j a b * e a * e b))) by (intros; rewrite <- rsum_plus; apply rsum_ext; intros; ring).
    rewrite rsum_plus. ring.
  Qed.
  Lemma quadratic_lin : forall n m A T, quadratic_map n T -> quadratic_map m (fun e => lin n A (T e)).
  Proof.
    intros n m A T (Q & c & H). exists (fun i a b => rsum n (fun j => A i j * Q j a b)), (lin n A c). intros e i _.
    rewrite (lin_ext_v n A (T e) (fun j => c j + bil n_e n_e Q e e j)) by (intros; apply H; assumption). rewrite lin_plus. f_equal.
    unfold lin, bil. rewrite (rsum_ext n _ (fun j => rsum n_e (fun a => rsum n_e (fun b => A i j * Q j a b * e a * e b)))).
    - rewrite rsum_swap. apply rsum_ext. intros a _. rewrite rsum_swap. apply rsum_ext. intros b _. rewrite <- !rsum_scal_r. reflexivity.
    - intros j _. rewrite <- rsum_scal. apply rsum_ext. intros a _. rewrite <- rsum_scal. apply rsum_ext. intros. ring.
  Qed.
  Lemma quadratic_bil : forall n m q A T U, linear_map n T -> linear_map m U -> quadratic_map q (fun e => bil n m A (T e) (U e)).
  Proof.
    intros n m q A T U (B & HB) (C & HC). exists (fun i a b => rsum n (fun j => rsum m (fun k => A i j k * B j a * C k b))), (fun _ => 0). intros e i _.
    rewrite Rplus_0_l. rewrite (bil_ext_v n m A (T e) (U e) (lin n_e B e) (lin n_e C e)) by (intros; (apply HB || apply HC); assumption). unfold bil, lin.
    rewrite (rsum_ext n _ (fun j => rsum n_e (fun a => rsum n_e (fun b => rsum m (fun k => A i j k * B j a * C k b * e a * e b))))).
    - rewrite rsum_swap. apply rsum_ext. intros a _. rewrite rsum_swap. apply rsum_ext. intros b _. rewrite <- !rsum_scal_r. apply rsum_ext. intros j _.
      rewrite <- !rsum_scal_r. reflexivity.
    - intros j _. rewrite (rsum_ext m _ (fun k => rsum n_e (fun a => rsum n_e (fun b => A i j k * B j a * C k b * e a * e b)))).
      + rewrite rsum_swap. apply rsum_ext. intros a _. rewrite rsum_swap. reflexivity.
      + intros k _. rewrite Rmult_assoc, <- rsum_scal_r, <- rsum_scal. apply rsum_ext. intros a _. rewrite <- !rsum_scal. apply rsum_ext. intros. ring.
  Qed.
  Lemma quadratic_glue : forall (n m : nat) T U, quadratic_map n T -> quadratic_map m U -> quadratic_map (n + m) (fun e => glue n (T e) (U e)).
  Proof.
    intros n m T U (B & b & HB) (C & c & HC).
    exists (fun j a a' => if Nat.ltb j n then B j a a' else C (j - n)%nat a a'), (fun j => if Nat.ltb j n then b j else c (j - n)%nat).
    intros e j Hj. unfold glue, bil. destruct (Nat.ltb_spec j n); [apply HB; lia|apply HC; lia].
  Qed.
End Moments.

(** ** Jets *)
Lemma jet_t2 : forall u a b c k, jet 3 u a b c -> jet 3 (fun t => t ^ 2 * (k * u t)) 0 0 (k * a).
Proof.
  intros u a b c k H. unfold jet in *.
  apply (big_ext 4 (fun t => k * (t ^ 2 * (u t - (t * a + t ^ 2 * b + t ^ 3 * c))) + (k * b * t ^ 4 + k * c * t ^ 5))); [intros; ring|].
  apply big_plus; [apply big_scal; apply (big_weak (2 + 4)); [lia|]; apply big_mul; [apply (big_ext 2 (fun t => 1 * t ^ 2)); [intros; ring|apply big_pow]|exact H]|].
  apply big_plus; [apply big_pow|apply (big_weak 5); [lia|apply big_pow]].
Qed.

(** Coefficients are determined by the function. *)
Lemma big_monomial : forall q a, big (S q) (fun t => a * t ^ q) -> a = 0.
Proof.
  intros q a (K & d & HK & Hd & H). destruct (Req_dec a 0) as [|Hne]; [assumption|exfalso].
  assert (Ha : 0 < Rabs a) by (apply Rabs_pos_lt; exact Hne).
  set (t := Rmin d (Rabs a / (2 * (K + 1)))).
  assert (Hq : 0 < Rabs a / (2 * (K + 1))) by (apply Rdiv_lt_0_compat; lra).
  assert (Ht : 0 < t) by (apply Rmin_glb_lt; assumption).
  assert (Ht' : Rabs t = t) by (apply Rabs_right; lra).
  pose proof (Rmin_l d (Rabs a / (2 * (K + 1)))). pose proof (Rmin_r d (Rabs a / (2 * (K + 1)))). fold t in H0, H1.
  specialize (H t ltac:(lra)). rewrite Rabs_mult, <- RPow_abs, Ht' in H. simpl in H.
  assert (Hp : 0 < t ^ q) by (apply pow_lt; exact Ht).
  assert (K1 : Rabs a <= K * t) by (apply (Rmult_le_reg_r (t ^ q)); [exact Hp|lra]).
  assert (K2 : (K + 1) * t <= Rabs a / 2).
  { replace (Rabs a / 2) with ((K + 1) * (Rabs a / (2 * (K + 1)))) by (field; lra). apply Rmult_le_compat_l; lra. }
  lra.
Qed.
Lemma jet_low : forall u a b c, jet 3 u a b c -> big 3 u -> a = 0 /\ b = 0.
Proof.
  intros u a b c H H3. unfold jet in H.
  assert (E : big 3 (fun t => t * a + t ^ 2 * b)).
  { apply (big_ext 3 (fun t => u t + ((-1) * (u t - (t * a + t ^ 2 * b + t ^ 3 * c)) + (- c) * t ^ 3))); [intros; ring|].
    apply big_plus; [exact H3|]. apply big_plus; [apply big_scal; apply (big_weak 4); [lia|exact H]|apply big_pow]. }
  assert (Ea : a = 0).
  { apply (big_monomial 1). apply (big_ext 2 (fun t => (t * a + t ^ 2 * b) + (- b) * t ^ 2)); [intros; ring|].
    apply big_plus; [apply (big_weak 3); [lia|exact E]|apply big_pow]. }
  split; [exact Ea|]. apply (big_monomial 2). apply (big_ext 3 (fun t => t * a + t ^ 2 * b)); [intros; subst a; ring|exact E].
Qed.
Lemma accurate_big : forall q n_s n_x M p eps f g phi h mu i, accurate q n_s n_x M p eps f g phi -> (i < n_x)%nat ->
    big q (fun t => residual n_s n_x M p eps f g phi (fun j => t * h j) (t * mu) i).
Proof.
  intros q n_s n_x M p eps f g phi h mu i H Hi. destruct (H h mu) as (K & d & Hd & Hr).
  exists (Rabs K), d. split; [apply Rabs_pos|]. split; [exact Hd|]. intros t Ht. eapply Rle_trans; [apply Hr; assumption|].
  apply Rmult_le_compat_r; [apply pow_le, Rabs_pos|apply Rle_abs].
Qed.

Lemma rule3_jet3 : forall n_s X_s X_ss X_sss X_tt X_stt mu (s : R -> vector) a b c j,
    (forall k l, (k < n_s)%nat -> (l < n_s)%nat -> X_ss j k l = X_ss j l k) ->
    (forall l, (l < n_s)%nat -> jet 3 (fun t => s t l) (a l) (b l) (c l)) ->
    jet 3 (fun t => rule3 n_s X_s X_ss X_sss X_tt X_stt (s t) (t * mu) j)
      (lin n_s X_s a j) (lin n_s X_s b j + / 2 * bil n_s n_s X_ss a a j + mu ^ 2 / 2 * X_tt j)
      (lin n_s X_s c j + bil n_s n_s X_ss a b j + / 6 * tri n_s n_s n_s X_sss a a a j + mu ^ 2 / 2 * lin n_s X_stt a j).
Proof.
  intros n_s X_s X_ss X_sss X_tt X_stt mu s a b c j HX Hs.
  refine (jet_ext 3 (fun t => poly3 n_s X_s X_ss X_sss (s t) j + ((t * 0 + t ^ 2 * (mu ^ 2 / 2 * X_tt j) + t ^ 3 * 0)
                                + t ^ 2 * (mu ^ 2 / 2 * lin n_s X_stt (s t) j))) _ _ _ _ _ _).
  - intros t. unfold rule3. field.
  - eapply jet_eq; [| | |apply jet_plus; [apply (jet_poly3 n_s X_s X_ss X_sss s a b c j Hs)|
        apply jet_plus; [apply jet_exact|apply (jet_t2 _ _ _ _ (mu ^ 2 / 2) (jet_lin 3 n_s X_stt s a b c j Hs))]]]; cbv beta.
    + ring.
    + ring.
    + rewrite (bil_swap n_s X_ss b a j) by (intros; apply HX; assumption). field.
Qed.

Section Third.
  Variables n_s n_x n_e : nat.
  Variables (f1 g1 : nat -> nat -> R) (f2 g2 : nat -> nat -> nat -> R) (f3 g3 : nat -> nat -> nat -> nat -> R).
  Variables (X_s : nat -> nat -> R) (X_ss : nat -> nat -> nat -> R) (X_sss : nat -> nat -> nat -> nat -> R) (X_tt : vector) (X_stt : nat -> nat -> R).
  Variables (M : nat) (p : vector) (eps : nat -> vector).
  Let N := (n_s + (n_x + (n_s + n_x)))%nat.
  Let G := (n_s + (n_x + n_e))%nat.
  Let stk4 := stack4 n_s n_x.
  Let stk3 := stack3 n_s n_x.
  Let xof := x_of n_s X_s.
  Let wof := w_of n_s n_x X_s.
  Let snext := s_next n_s n_x n_e g1 X_s.
  Let vof := v_of n_s n_x n_e g1 X_s.
  Let eof := e_of n_s n_x.
  Let sshock := s_shock n_s n_x n_e g1.
  Let vshock := v_shock n_s n_x n_e g1 X_s.
  Let s2of := s2_of n_s n_x n_e g1 g2 X_s X_ss.
  Let s2risk := s2_risk n_s n_x n_e g1 g2 X_tt M p eps.
  Let mean := mean M p.

  (** Second-order effects of h; of h and a shock; of a shock. *)
  Definition v2_of (h : vector) : vector := stk4 zero (bil n_s n_s X_ss h h) (s2of h)
     (fun i => xof (s2of h) i + bil n_s n_s X_ss (snext h) (snext h) i).
  Definition s_mixed (h e : vector) : vector := bil G G g2 (wof h) (eof e).
  Definition v_mixed (h e : vector) : vector := stk4 zero zero (s_mixed h e) (fun i => xof (s_mixed h e) i + bil n_s n_s X_ss (snext h) (sshock e) i).
  Definition s2_shock (e : vector) : vector := fun i => lin G g1 (stk3 zero X_tt zero) i + bil G G g2 (eof e) (eof e) i.
  Definition v2_shock (e : vector) : vector := stk4 zero X_tt (s2_shock e)
     (fun i => xof (s2_shock e) i + bil n_s n_s X_ss (sshock e) (sshock e) i + X_tt i).

  Definition s3_of (h : vector) : vector := fun i =>
    lin G g1 (stk3 zero (tri n_s n_s n_s X_sss h h h) zero) i + 3 * bil G G g2 (wof h) (stk3 zero (bil n_s n_s X_ss h h) zero) i
    + tri G G G g3 (wof h) (wof h) (wof h) i.
  Definition condition3 : Prop := forall h i, (i < n_x)%nat ->
    lin N f1 (stk4 zero (tri n_s n_s n_s X_sss h h h) (s3_of h)
       (fun i => xof (s3_of h) i + 3 * bil n_s n_s X_ss (snext h) (s2of h) i + tri n_s n_s n_s X_sss (snext h) (snext h) (snext h) i)) i
    + 3 * bil N N f2 (vof h) (v2_of h) i + tri N N N f3 (vof h) (vof h) (vof h) i = 0.

  Definition st_of (h : vector) : vector := fun i =>
    lin G g1 (stk3 zero (lin n_s X_stt h) zero) i + bil G G g2 (wof h) (stk3 zero X_tt zero) i
    + mean (fun k => tri G G G g3 (wof h) (eof (eps k)) (eof (eps k))) i.
  Definition condition_stt : Prop := forall h i, (i < n_x)%nat ->
    lin N f1 (stk4 zero (lin n_s X_stt h) (st_of h)
       (fun i => xof (st_of h) i + (bil n_s n_s X_ss (snext h) s2risk i + 2 * mean (fun k => bil n_s n_s X_ss (sshock (eps k)) (s_mixed h (eps k))) i)
                 + mean (fun k => tri n_s n_s n_s X_sss (snext h) (sshock (eps k)) (sshock (eps k))) i + lin n_s X_stt (snext h) i)) i
    + (bil N N f2 (vof h) (mean (fun k => v2_shock (eps k))) i + 2 * mean (fun k => bil N N f2 (vshock (eps k)) (v_mixed h (eps k))) i)
    + mean (fun k => tri N N N f3 (vof h) (vshock (eps k)) (vshock (eps k))) i = 0.

  Hypothesis Hmass : rsum M p = 1.
  Hypothesis Hmean : forall j, (j < n_e)%nat -> rsum M (fun k => p k * eps k j) = 0.
  Hypothesis Hthird : forall a b c, (a < n_e)%nat -> (b < n_e)%nat -> (c < n_e)%nat -> rsum M (fun k => p k * (eps k a * eps k b * eps k c)) = 0.

  Hypothesis Sf2 : symmetric2 n_x N f2.
  Hypothesis Sg2 : symmetric2 n_s G g2.
  Hypothesis SX : symmetric2 n_x n_s X_ss.
  Hypothesis Sf3 : symmetric3 n_x N f3.
  Hypothesis Sg3 : symmetric3 n_s G g3.
  Hypothesis SX3 : symmetric3 n_x n_s X_sss.

  Lemma lin_eof : linear_map n_e G eof.
  Proof. apply linear_glue; [apply linear_zero|]. apply linear_glue; [apply linear_zero|apply linear_id]. Qed.
  Lemma lin_sshock : linear_map n_e n_s sshock.
  Proof. apply (linear_lin n_e G n_s g1 eof lin_eof). Qed.
  Lemma lin_vshock : linear_map n_e N vshock.
  Proof.
    apply linear_glue; [apply linear_zero|]. apply linear_glue; [apply linear_zero|]. apply linear_glue; [apply lin_sshock|].
    apply (linear_lin n_e n_s n_x X_s sshock lin_sshock).
  Qed.
  Lemma quad_s2 : quadratic_map n_e n_s s2_shock.
  Proof. apply quadratic_plus; [apply quadratic_const|]. apply quadratic_bil; apply lin_eof. Qed.
  Lemma quad_v2 : quadratic_map n_e N v2_shock.
  Proof.
    apply quadratic_glue; [apply quadratic_const|]. apply quadratic_glue; [apply quadratic_const|]. apply quadratic_glue; [apply quad_s2|].
    apply quadratic_plus; [|apply quadratic_const]. apply quadratic_plus; [apply (quadratic_lin n_e n_s n_x X_s s2_shock quad_s2)|].
    apply quadratic_bil; apply lin_sshock.
  Qed.
  Lemma lin_mixed : forall h, linear_map n_e n_s (s_mixed h).
  Proof.
    intros h. destruct (linear_lin n_e G n_s (fun i j => rsum G (fun l => g2 i l j * wof h l)) eof lin_eof) as (B & HB).
    exists B. intros e i Hi. rewrite <- HB by exact Hi. unfold s_mixed, bil, lin. rewrite rsum_swap. apply rsum_ext. intros j _.
    rewrite <- rsum_scal_r. reflexivity.
  Qed.
  Lemma lin_vmixed : forall h, linear_map n_e N (v_mixed h).
  Proof.
    intros h. apply linear_glue; [apply linear_zero|]. apply linear_glue; [apply linear_zero|]. apply linear_glue; [apply lin_mixed|].
    destruct (linear_lin n_e n_s n_x X_s (s_mixed h) (lin_mixed h)) as (B & HB).
    destruct (linear_lin n_e n_s n_x (fun i j => rsum n_s (fun l => X_ss i l j * snext h l)) sshock lin_sshock) as (C & HC).
    exists (fun i j => B i j + C i j). intros e i Hi. unfold lin at 1. rewrite (rsum_ext n_e _ (fun j => B i j * e j + C i j * e j)) by (intros; ring).
    rewrite rsum_plus. f_equal; [apply HB; exact Hi|]. etransitivity; [|apply HC; exact Hi].
    unfold bil, lin. rewrite rsum_swap. apply rsum_ext. intros j _. rewrite <- rsum_scal_r. reflexivity.
  Qed.

  Variables (f g : vector -> vector).
  Hypothesis Hf : expands3 N n_x f f1 f2 f3.
  Hypothesis Hg : expands3 G n_s g g1 g2 g3.
  Let phi := rule3 n_s X_s X_ss X_sss X_tt X_stt.
  Hypothesis A3 : accurate 3 n_s n_x M p eps f g phi.
  Hypothesis C3 : condition3.
  Hypothesis CS : condition_stt.

  Section Direction.
    Variables (h : vector) (mu : R).
    Let x2 : vector := fun j => bil n_s n_s X_ss h h j + mu ^ 2 * X_tt j.
    Let x3 : vector := fun j => tri n_s n_s n_s X_sss h h h j + 3 * mu ^ 2 * lin n_s X_stt h j.
    Let w1 (k : nat) : vector := fun j => wof h j + mu * eof (eps k) j.
    Let S1 (k : nat) : vector := fun j => snext h j + mu * sshock (eps k) j.
    Let S2 (k : nat) : vector := fun j => s2of h j + (mu * (2 * s_mixed h (eps k) j) + mu ^ 2 * s2_shock (eps k) j).
    Let S3 (k : nat) : vector := fun j => lin G g1 (stk3 zero x3 zero) j + 3 * bil G G g2 (w1 k) (stk3 zero x2 zero) j + tri G G G g3 (w1 k) (w1 k) (w1 k) j.
    Let X3 (k : nat) : vector := fun j => xof (S3 k) j + 3 * bil n_s n_s X_ss (S1 k) (S2 k) j + tri n_s n_s n_s X_sss (S1 k) (S1 k) (S1 k) j
                                          + 3 * mu ^ 2 * lin n_s X_stt (S1 k) j.
    Let v1 (k : nat) : vector := fun j => vof h j + mu * vshock (eps k) j.
    Let V2 (k : nat) : vector := fun j => v2_of h j + (mu * (2 * v_mixed h (eps k) j) + mu ^ 2 * v2_shock (eps k) j).
    Let V3 (k : nat) : vector := stk4 zero x3 (S3 k) (X3 k).
    Let U1 (k : nat) : vector := stk4 h (xof h) (S1 k) (xof (S1 k)).
    Let U2 (k : nat) : vector := stk4 zero (fun j => / 2 * x2 j) (fun j => / 2 * S2 k j)
      (fun j => lin n_s X_s (fun j => / 2 * S2 k j) j + / 2 * bil n_s n_s X_ss (S1 k) (S1 k) j + mu ^ 2 / 2 * X_tt j).

    Lemma direction_w1 : forall k j, (j < G)%nat -> stk3 h (xof h) (fun j => mu * eps k j) j = w1 k j.
    Proof.
      intros k j Hj. unfold w1, wof, w_of, eof, e_of, stk3, stack3, glue, zero, xof. destruct (Nat.ltb _ _); [ring|]. destruct (Nat.ltb _ _); ring.
    Qed.
    Lemma direction_S2 : forall k j, (j < n_s)%nat -> lin G g1 (stk3 zero (fun j => / 2 * x2 j) zero) j + / 2 * bil G G g2 (w1 k) (w1 k) j = / 2 * S2 k j.
    Proof.
      intros k j Hj. unfold S2, s2of, s2_of, s_mixed, s2_shock, w1. rewrite bil_plus_l, !bil_plus_r, !bil_scal_l, !bil_scal_r.
      rewrite (bil_swap G g2 (eof (eps k)) (wof h) j) by (intros; apply Sg2; assumption).
      rewrite (lin_ext_v G g1 (stk3 zero (fun j => / 2 * x2 j) zero) (fun j => / 2 * (stk3 zero (bil n_s n_s X_ss h h) zero j + mu ^ 2 * stk3 zero X_tt zero j)) j).
      - rewrite (lin_scal G g1 (/ 2)), (lin_plus G g1 (stk3 zero (bil n_s n_s X_ss h h) zero)), (lin_scal G g1 (mu ^ 2)). unfold stk3, wof, eof, G. field.
      - intros l _. unfold stk3, stack3, glue, zero, x2. destruct (Nat.ltb _ _); [ring|]. destruct (Nat.ltb _ _); ring.
    Qed.
    Lemma direction_V2 : forall k j, (j < N)%nat ->
        stk4 zero (fun j => / 2 * x2 j) (fun j => / 2 * S2 k j) (fun j => lin n_s X_s (fun j => / 2 * S2 k j) j + / 2 * bil n_s n_s X_ss (S1 k) (S1 k) j + mu ^ 2 / 2 * X_tt j) j
        = / 2 * V2 k j.
    Proof.
      intros k j Hj. unfold V2, v2_of, v_mixed, v2_shock, stk4, stack4, glue.
      destruct (Nat.ltb_spec j n_s); [unfold zero; ring|].
      destruct (Nat.ltb_spec (j - n_s) n_x); [unfold x2, zero; field|].
      destruct (Nat.ltb_spec (j - n_s - n_x) n_s); [unfold S2; reflexivity|].
      set (l := (j - n_s - n_x - n_s)%nat). assert (Hl : (l < n_x)%nat) by (unfold l, N in *; lia).
      rewrite lin_scal. unfold S2 at 1. rewrite (lin_plus n_s X_s (s2of h)), (lin_plus n_s X_s (fun j => mu * (2 * s_mixed h (eps k) j))), (lin_scal n_s X_s mu), (lin_scal n_s X_s 2), (lin_scal n_s X_s (mu ^ 2)).
      unfold S1. rewrite bil_plus_l, !bil_plus_r, !bil_scal_l, !bil_scal_r.
      rewrite (bil_swap n_s X_ss (sshock (eps k)) (snext h) l) by (intros; apply SX; assumption).
      unfold xof, x_of. field.
    Qed.

    Lemma direction_jet : forall k i, (k < M)%nat -> (i < n_x)%nat ->
      jet 3 (fun t => let x := phi (fun j => t * h j) (t * mu) in
                      let s' := g (glue n_s (fun j => t * h j) (glue n_x x (fun j => t * mu * eps k j))) in
                      f (glue n_s (fun j => t * h j) (glue n_x x (glue n_s s' (phi s' (t * mu))))) i)
        (lin N f1 (U1 k) i) (lin N f1 (U2 k) i + / 2 * bil N N f2 (U1 k) (U1 k) i)
        (/ 6 * (lin N f1 (V3 k) i + 3 * bil N N f2 (v1 k) (V2 k) i + tri N N N f3 (v1 k) (v1 k) (v1 k) i)).
    Proof.
      intros k i Hk Hi. cbv zeta.
      assert (HX : forall j, (j < n_x)%nat -> forall k l, (k < n_s)%nat -> (l < n_s)%nat -> X_ss j k l = X_ss j l k) by (intros; apply SX; assumption).
      assert (Js : forall j, (j < n_s)%nat -> jet 3 (fun t => t * h j) (h j) (zero j) (zero j)) by (intros; apply jet_line).
      assert (Jx : forall j, (j < n_x)%nat -> jet 3 (fun t => phi (fun j => t * h j) (t * mu) j) (xof h j) (/ 2 * x2 j) (/ 6 * x3 j)).
      { intros j Hj. eapply jet_eq; [| | |apply (rule3_jet3 n_s X_s X_ss X_sss X_tt X_stt mu (fun t j => t * h j) h zero zero j (HX j Hj) Js)].
        - reflexivity.
        - unfold x2. rewrite (lin_zero n_s X_s zero) by reflexivity. field.
        - unfold x3. rewrite (lin_zero n_s X_s zero) by reflexivity. rewrite (bil_ext_v n_s n_s X_ss h zero h (fun j => 0 * h j)) by (intros; unfold zero; ring).
          rewrite bil_scal_r. field. }
      assert (Jw : forall j, (j < G)%nat -> jet 3 (fun t => glue n_s (fun j => t * h j) (glue n_x (phi (fun j => t * h j) (t * mu)) (fun j => t * mu * eps k j)) j)
                 (w1 k j) (stk3 zero (fun j => / 2 * x2 j) zero j) (stk3 zero (fun j => / 6 * x3 j) zero j)).
      { intros j Hj. rewrite <- direction_w1 by exact Hj. unfold stk3, stack3. apply (jet_glue 3 n_s (n_x + n_e) (fun t j => t * h j)
            (fun t => glue n_x (phi (fun j => t * h j) (t * mu)) (fun j => t * mu * eps k j))); [exact Js| |exact Hj].
        intros l Hl. apply (jet_glue 3 n_x n_e (fun t => phi (fun j => t * h j) (t * mu)) (fun t j => t * mu * eps k j)); [exact Jx| |exact Hl].
        intros q _. refine (jet_ext 3 (fun t => t * (mu * eps k q)) _ _ _ _ _ (jet_line 3 _)). intros t. ring. }
      assert (JS : forall j, (j < n_s)%nat -> jet 3 (fun t => g (glue n_s (fun j => t * h j) (glue n_x (phi (fun j => t * h j) (t * mu)) (fun j => t * mu * eps k j))) j)
                 (S1 k j) (/ 2 * S2 k j) (/ 6 * S3 k j)).
      { intros j Hj. eapply jet_eq; [| | |apply (jet_expands3 G n_s g g1 g2 g3 _ _ _ _ Hg Jw j Hj)].
        - unfold w1, S1, snext, s_next, sshock, s_shock. rewrite lin_plus, lin_scal. reflexivity.
        - apply direction_S2. exact Hj.
        - unfold S3. rewrite (bil_swap G g2 (stk3 zero (fun j => / 2 * x2 j) zero) (w1 k) j) by (intros; apply Sg2; assumption).
          rewrite (lin_ext_v G g1 (stk3 zero (fun j => / 6 * x3 j) zero) (fun j => / 6 * stk3 zero x3 zero j) j)
            by (intros; unfold stk3, stack3, glue, zero; destruct (Nat.ltb _ _); [ring|]; destruct (Nat.ltb _ _); ring).
          rewrite (bil_ext_v G G g2 (w1 k) (stk3 zero (fun j => / 2 * x2 j) zero) (w1 k) (fun j => / 2 * stk3 zero x2 zero j) j)
            by (reflexivity || (intros; unfold stk3, stack3, glue, zero; destruct (Nat.ltb _ _); [ring|]; destruct (Nat.ltb _ _); ring)).
          rewrite lin_scal, bil_scal_r. field. }
      eapply jet_eq; [reflexivity|reflexivity| |apply (jet_expands3 N n_x f f1 f2 f3
           (fun t => glue n_s (fun j => t * h j) (glue n_x (phi (fun j => t * h j) (t * mu))
              (glue n_s (g (glue n_s (fun j => t * h j) (glue n_x (phi (fun j => t * h j) (t * mu)) (fun j => t * mu * eps k j))))
                 (phi (g (glue n_s (fun j => t * h j) (glue n_x (phi (fun j => t * h j) (t * mu)) (fun j => t * mu * eps k j)))) (t * mu)))))
           (stk4 h (xof h) (S1 k) (xof (S1 k)))
           (stk4 zero (fun j => / 2 * x2 j) (fun j => / 2 * S2 k j) (fun j => lin n_s X_s (fun j => / 2 * S2 k j) j + / 2 * bil n_s n_s X_ss (S1 k) (S1 k) j + mu ^ 2 / 2 * X_tt j))
           (stk4 zero (fun j => / 6 * x3 j) (fun j => / 6 * S3 k j) (fun j => lin n_s X_s (fun j => / 6 * S3 k j) j + bil n_s n_s X_ss (S1 k) (fun j => / 2 * S2 k j) j
               + / 6 * tri n_s n_s n_s X_sss (S1 k) (S1 k) (S1 k) j + mu ^ 2 / 2 * lin n_s X_stt (S1 k) j)) Hf); [|exact Hi]].
      - set (b := stk4 zero (fun j => / 2 * x2 j) _ _). set (c := stk4 zero (fun j => / 6 * x3 j) _ _). set (a := stk4 h _ _ _).
        assert (Ea : forall j, (j < N)%nat -> a j = v1 k j).
        { intros j Hj. unfold a, v1, vof, v_of, vshock, v_shock, stk4. rewrite <- stack4_lin. apply stack4_ext; [exact Hj| | | |].
          + intros l _. unfold zero. ring.
          + intros l _. unfold zero, xof. ring.
          + intros l _. reflexivity.
          + intros l _. unfold xof, x_of, S1. rewrite lin_plus, lin_scal. reflexivity. }
        assert (Eb : forall j, (j < N)%nat -> b j = / 2 * V2 k j) by (intros; apply direction_V2; assumption).
        assert (Ec : forall j, (j < N)%nat -> c j = / 6 * V3 k j).
        { intros j Hj. unfold c, V3, stk4, stack4, glue. destruct (Nat.ltb _ _); [unfold zero; ring|]. destruct (Nat.ltb _ _); [ring|]. destruct (Nat.ltb _ _); [ring|].
          unfold X3. rewrite lin_scal, bil_scal_r. unfold xof, x_of. field. }
        rewrite (bil_swap N f2 b a i) by (intros; apply Sf2; assumption).
        rewrite (lin_ext_v N f1 c (fun j => / 6 * V3 k j) i Ec), (bil_ext_v N N f2 a b (v1 k) (fun j => / 2 * V2 k j) i Ea Eb), (tri_ext_v N N N f3 a a a (v1 k) (v1 k) (v1 k) i Ea Ea Ea).
        rewrite lin_scal, bil_scal_r. field.
      - intros j Hj. unfold stk4, stack4.
        refine (jet_glue 3 n_s (n_x + (n_s + n_x)) (fun t j => t * h j) _ _ _ _ _ _ _ Js _ j Hj).
        intros l Hl. refine (jet_glue 3 n_x (n_s + n_x) (fun t => phi (fun j => t * h j) (t * mu)) _ _ _ _ _ _ _ Jx _ l Hl).
        intros q Hq. refine (jet_glue 3 n_s n_x (fun t => g (glue n_s (fun j => t * h j) (glue n_x (phi (fun j => t * h j) (t * mu)) (fun j => t * mu * eps k j)))) _ _ _ _ _ _ _ JS _ q Hq).
        intros r Hr. eapply jet_eq; [| | |apply (rule3_jet3 n_s X_s X_ss X_sss X_tt X_stt mu _ (S1 k) (fun j => / 2 * S2 k j) (fun j => / 6 * S3 k j) r (HX r Hr) JS)]; reflexivity.
    Qed.

    Lemma mean_mixed_0 : forall j, (j < n_s)%nat -> mean (fun k j => 2 * s_mixed h (eps k) j) j = 0.
    Proof.
      intros j Hj. unfold mean. rewrite (mean_scal M p 2 (fun k => s_mixed h (eps k))).
      rewrite (mean_linear M n_e p eps Hmean n_s (s_mixed h) j (lin_mixed h) Hj). ring.
    Qed.
    Lemma mean_vmixed_0 : forall j, (j < N)%nat -> mean (fun k j => 2 * v_mixed h (eps k) j) j = 0.
    Proof.
      intros j Hj. unfold mean. rewrite (mean_scal M p 2 (fun k => v_mixed h (eps k))).
      rewrite (mean_linear M n_e p eps Hmean N (v_mixed h) j (lin_vmixed h) Hj). ring.
    Qed.
    Lemma mean_s2 : forall j, mean (fun k => s2_shock (eps k)) j = s2risk j.
    Proof.
      intros j. unfold s2_shock, mean. rewrite (mean_plus M p (fun _ => lin G g1 (stk3 zero X_tt zero))), mean_const by exact Hmass. reflexivity.
    Qed.

    Lemma mean_S3 : forall j, (j < n_s)%nat -> mean S3 j = s3_of h j + 3 * mu ^ 2 * st_of h j.
    Proof.
      intros j Hj. unfold S3, mean.
      rewrite (mean_plus M p (fun k j => lin G g1 (stk3 zero x3 zero) j + 3 * bil G G g2 (w1 k) (stk3 zero x2 zero) j) (fun k => tri G G G g3 (w1 k) (w1 k) (w1 k))).
      rewrite (mean_plus M p (fun _ => lin G g1 (stk3 zero x3 zero))), mean_const by exact Hmass.
      rewrite (mean_scal M p 3 (fun k => bil G G g2 (w1 k) (stk3 zero x2 zero))), mean_bil_l.
      unfold w1. rewrite (mean_cubic M p Hmass G g3 (wof h) mu (fun k => eof (eps k)) j).
      2:{ intros. apply Sg3; assumption. }
      2:{ intros l Hl. apply (mean_linear M n_e p eps Hmean G eof l lin_eof Hl). }
      2:{ apply (mean_linear_cubic M n_e p eps Hthird G g3 eof j lin_eof). }
      rewrite (bil_ext_v G G g2 (HigherOrderAlgebra.mean M p (fun k j => wof h j + mu * eof (eps k) j)) (stk3 zero x2 zero) (wof h)
                 (fun j => stk3 zero (bil n_s n_s X_ss h h) zero j + mu ^ 2 * stk3 zero X_tt zero j) j).
      2:{ intros l Hl. rewrite (mean_plus M p (fun _ => wof h)), mean_const by exact Hmass.
          rewrite (mean_scal M p mu (fun k => eof (eps k))), (mean_linear M n_e p eps Hmean G eof l lin_eof Hl). ring. }
      2:{ intros l _. unfold stk3, stack3, glue, zero, x2. destruct (Nat.ltb _ _); [ring|]. destruct (Nat.ltb _ _); ring. }
      rewrite bil_plus_r, bil_scal_r.
      rewrite (lin_ext_v G g1 (stk3 zero x3 zero) (fun j => stk3 zero (tri n_s n_s n_s X_sss h h h) zero j + 3 * mu ^ 2 * stk3 zero (lin n_s X_stt h) zero j) j)
        by (intros; unfold stk3, stack3, glue, zero, x3; destruct (Nat.ltb _ _); [ring|]; destruct (Nat.ltb _ _); ring).
      rewrite (lin_plus G g1 (stk3 zero (tri n_s n_s n_s X_sss h h h) zero)), (lin_scal G g1 (3 * mu ^ 2)).
      unfold s3_of, st_of, mean. ring.
    Qed.

    Lemma mean_X3 : forall j, (j < n_x)%nat -> mean X3 j =
        (xof (s3_of h) j + 3 * bil n_s n_s X_ss (snext h) (s2of h) j + tri n_s n_s n_s X_sss (snext h) (snext h) (snext h) j)
        + 3 * mu ^ 2 * (xof (st_of h) j + (bil n_s n_s X_ss (snext h) s2risk j + 2 * mean (fun k => bil n_s n_s X_ss (sshock (eps k)) (s_mixed h (eps k))) j)
                 + mean (fun k => tri n_s n_s n_s X_sss (snext h) (sshock (eps k)) (sshock (eps k))) j + lin n_s X_stt (snext h) j).
    Proof.
      intros j Hj. unfold X3, mean.
      rewrite (mean_plus M p (fun k j => xof (S3 k) j + 3 * bil n_s n_s X_ss (S1 k) (S2 k) j + tri n_s n_s n_s X_sss (S1 k) (S1 k) (S1 k) j)).
      rewrite (mean_plus M p (fun k j => xof (S3 k) j + 3 * bil n_s n_s X_ss (S1 k) (S2 k) j) (fun k => tri n_s n_s n_s X_sss (S1 k) (S1 k) (S1 k))).
      rewrite (mean_plus M p (fun k => xof (S3 k))).
      unfold xof at 1, x_of. rewrite (mean_lin M p n_s X_s S3).
      rewrite (lin_ext_v n_s X_s (HigherOrderAlgebra.mean M p S3) (fun j => s3_of h j + 3 * mu ^ 2 * st_of h j) j) by (intros; apply mean_S3; assumption).
      rewrite lin_plus, lin_scal.
      rewrite (mean_scal M p 3 (fun k => bil n_s n_s X_ss (S1 k) (S2 k))), (mean_scal M p (3 * mu ^ 2) (fun k => lin n_s X_stt (S1 k))).
      rewrite (mean_lin M p n_s X_stt S1).
      assert (Hb : forall l, (l < n_s)%nat -> HigherOrderAlgebra.mean M p (fun k => sshock (eps k)) l = 0) by (intros; apply (mean_linear M n_e p eps Hmean n_s sshock); [apply lin_sshock|assumption]).
      rewrite (lin_ext_v n_s X_stt (HigherOrderAlgebra.mean M p S1) (snext h) j).
      2:{ intros l Hl. unfold S1. rewrite (mean_plus M p (fun _ => snext h)), mean_const by exact Hmass. rewrite (mean_scal M p mu (fun k => sshock (eps k))), Hb by exact Hl. ring. }
      unfold S1. rewrite (mean_cubic M p Hmass n_s X_sss (snext h) mu (fun k => sshock (eps k)) j).
      2:{ intros. apply SX3; assumption. }
      2:{ exact Hb. }
      2:{ apply (mean_linear_cubic M n_e p eps Hthird n_s X_sss sshock j lin_sshock). }
      unfold S2. rewrite (mean_mixed M p Hmass n_s n_s X_ss (snext h) mu (fun k => sshock (eps k)) (s2of h) (fun k j => 2 * s_mixed h (eps k) j) (fun k => s2_shock (eps k)) j).
      2:{ exact Hb. }
      2:{ exact mean_mixed_0. }
      2:{ apply (mean_linear_quadratic M n_e p eps Hmean Hthird n_s n_s X_ss sshock s2_shock j lin_sshock quad_s2). }
      rewrite (bil_ext_v n_s n_s X_ss (snext h) (HigherOrderAlgebra.mean M p (fun k => s2_shock (eps k))) (snext h) s2risk j) by (reflexivity || (intros; apply mean_s2)).
      rewrite (mean_ext M p (fun k => bil n_s n_s X_ss (sshock (eps k)) (fun j => 2 * s_mixed h (eps k) j)) (fun k j => 2 * bil n_s n_s X_ss (sshock (eps k)) (s_mixed h (eps k)) j) j)
        by (intros; apply bil_scal_r).
      rewrite (mean_scal M p 2 (fun k => bil n_s n_s X_ss (sshock (eps k)) (s_mixed h (eps k)))).
      unfold xof, x_of. ring.
    Qed.

    Lemma direction_third : forall i, (i < n_x)%nat ->
        rsum M (fun k => p k * (/ 6 * (lin N f1 (V3 k) i + 3 * bil N N f2 (v1 k) (V2 k) i + tri N N N f3 (v1 k) (v1 k) (v1 k) i))) = 0.
    Proof.
      intros i Hi.
      change (mean (fun k i => / 6 * (lin N f1 (V3 k) i + 3 * bil N N f2 (v1 k) (V2 k) i + tri N N N f3 (v1 k) (v1 k) (v1 k) i)) i = 0).
      unfold mean. rewrite (mean_scal M p (/ 6) (fun k i => lin N f1 (V3 k) i + 3 * bil N N f2 (v1 k) (V2 k) i + tri N N N f3 (v1 k) (v1 k) (v1 k) i)).
      rewrite (mean_plus M p (fun k i => lin N f1 (V3 k) i + 3 * bil N N f2 (v1 k) (V2 k) i) (fun k => tri N N N f3 (v1 k) (v1 k) (v1 k))), (mean_plus M p (fun k => lin N f1 (V3 k))).
      rewrite (mean_scal M p 3 (fun k => bil N N f2 (v1 k) (V2 k))), mean_lin.
      assert (Hb : forall l, (l < N)%nat -> HigherOrderAlgebra.mean M p (fun k => vshock (eps k)) l = 0) by (intros; apply (mean_linear M n_e p eps Hmean N vshock); [apply lin_vshock|assumption]).
      unfold v1. rewrite (mean_cubic M p Hmass N f3 (vof h) mu (fun k => vshock (eps k)) i).
      2:{ intros. apply Sf3; assumption. }
      2:{ exact Hb. }
      2:{ apply (mean_linear_cubic M n_e p eps Hthird N f3 vshock i lin_vshock). }
      unfold V2. rewrite (mean_mixed M p Hmass N N f2 (vof h) mu (fun k => vshock (eps k)) (v2_of h) (fun k j => 2 * v_mixed h (eps k) j) (fun k => v2_shock (eps k)) i).
      2:{ exact Hb. }
      2:{ exact mean_vmixed_0. }
      2:{ apply (mean_linear_quadratic M n_e p eps Hmean Hthird N N f2 vshock v2_shock i lin_vshock quad_v2). }
      rewrite (mean_ext M p (fun k => bil N N f2 (vshock (eps k)) (fun j => 2 * v_mixed h (eps k) j)) (fun k j => 2 * bil N N f2 (vshock (eps k)) (v_mixed h (eps k)) j) i)
        by (intros; apply bil_scal_r).
      rewrite (mean_scal M p 2 (fun k => bil N N f2 (vshock (eps k)) (v_mixed h (eps k)))).
      rewrite (lin_ext_v N f1 (HigherOrderAlgebra.mean M p V3)
        (fun j => stk4 zero (tri n_s n_s n_s X_sss h h h) (s3_of h)
           (fun i => xof (s3_of h) i + 3 * bil n_s n_s X_ss (snext h) (s2of h) i + tri n_s n_s n_s X_sss (snext h) (snext h) (snext h) i) j
         + 3 * mu ^ 2 * stk4 zero (lin n_s X_stt h) (st_of h)
           (fun i => xof (st_of h) i + (bil n_s n_s X_ss (snext h) s2risk i + 2 * mean (fun k => bil n_s n_s X_ss (sshock (eps k)) (s_mixed h (eps k))) i)
                 + mean (fun k => tri n_s n_s n_s X_sss (snext h) (sshock (eps k)) (sshock (eps k))) i + lin n_s X_stt (snext h) i) j) i).
      - rewrite lin_plus, lin_scal. pose proof (C3 h i Hi) as E3. pose proof (CS h i Hi) as ES. unfold mean in *. nra.
      - intros j Hj. unfold V3, stk4. rewrite (mean_stack4 n_s n_x M p (fun _ => zero) (fun _ => x3) S3 X3). unfold stack4, glue.
        destruct (Nat.ltb_spec j n_s); [unfold zero, HigherOrderAlgebra.mean; rewrite rsum_0 by (intros; ring); ring|].
        destruct (Nat.ltb_spec (j - n_s) n_x); [rewrite mean_const by exact Hmass; reflexivity|].
        destruct (Nat.ltb_spec (j - n_s - n_x) n_s); [apply mean_S3; assumption|apply mean_X3; unfold N in Hj; lia].
    Qed.
    Theorem direction_accurate : forall i, (i < n_x)%nat ->
        big 4 (fun t => residual n_s n_x M p eps f g phi (fun j => t * h j) (t * mu) i).
    Proof.
      intros i Hi. pose proof (accurate_big 3 n_s n_x M p eps f g phi h mu i A3 Hi) as B3. apply jet_zero.
      assert (J : jet 3 (fun t => residual n_s n_x M p eps f g phi (fun j => t * h j) (t * mu) i)
                (rsum M (fun k => p k * lin N f1 (U1 k) i)) (rsum M (fun k => p k * (lin N f1 (U2 k) i + / 2 * bil N N f2 (U1 k) (U1 k) i)))
                (rsum M (fun k => p k * (/ 6 * (lin N f1 (V3 k) i + 3 * bil N N f2 (v1 k) (V2 k) i + tri N N N f3 (v1 k) (v1 k) (v1 k) i))))).
      { unfold residual. apply (jet_rsum 3 M (fun k t => p k * _)). intros k Hk. apply jet_scal. apply direction_jet; assumption. }
      destruct (jet_low _ _ _ _ J B3) as (E1 & E2). rewrite (direction_third i Hi), E1, E2 in J. exact J.
    Qed.
  End Direction.

  Theorem third_order_accurate_gen : accurate 4 n_s n_x M p eps f g phi.
  Proof.
    intros h mu. apply (big_components 4 n_x (fun i t => residual n_s n_x M p eps f g phi (fun j => t * h j) (t * mu) i)).
    intros i Hi. apply direction_accurate. exact Hi.
  Qed.
End Third.
