(** Orders of magnitude and expansions along a line, for the proofs on higher-order perturbation. *)
From Coq Require Import Reals List Arith Lia Lra.
From Verif.Base Require Import Prelude Sums.
From Verif.Spec Require Import HigherOrder.
Open Scope R_scope.

Definition big (q : nat) (u : R -> R) : Prop :=
  exists K d, 0 <= K /\ 0 < d /\ forall t, Rabs t <= d -> Rabs (u t) <= K * Rabs t ^ q.

Lemma big_ext : forall q u v, (forall t, u t = v t) -> big q u -> big q v.
Proof. intros q u v H (K & d & HK & Hd & Hu). exists K, d. split; [exact HK|]. split; [exact Hd|]. intros t Ht. rewrite <- H. apply Hu. exact Ht. Qed.

Lemma big_plus : forall q u v, big q u -> big q v -> big q (fun t => u t + v t).
Proof.
  intros q u v (K & d & HK & Hd & Hu) (K' & d' & HK' & Hd' & Hv). exists (K + K'), (Rmin d d').
  split; [lra|]. split; [apply Rmin_glb_lt; assumption|]. intros t Ht.
  pose proof (Rmin_l d d'). pose proof (Rmin_r d d').
  specialize (Hu t ltac:(lra)). specialize (Hv t ltac:(lra)). pose proof (Rabs_triang (u t) (v t)). lra.
Qed.

Lemma big_mul : forall q r u v, big q u -> big r v -> big (q + r) (fun t => u t * v t).
Proof.
  intros q r u v (K & d & HK & Hd & Hu) (K' & d' & HK' & Hd' & Hv). exists (K * K'), (Rmin d d').
  split; [apply Rmult_le_pos; assumption|]. split; [apply Rmin_glb_lt; assumption|]. intros t Ht.
  pose proof (Rmin_l d d'). pose proof (Rmin_r d d').
  specialize (Hu t ltac:(lra)). specialize (Hv t ltac:(lra)).
  rewrite Rabs_mult, pow_add. replace (K * K' * (Rabs t ^ q * Rabs t ^ r)) with ((K * Rabs t ^ q) * (K' * Rabs t ^ r)) by ring.
  apply Rmult_le_compat; auto using Rabs_pos.
Qed.

Lemma big_weak : forall q r u, (r <= q)%nat -> big q u -> big r u.
Proof.
  intros q r u Hr (K & d & HK & Hd & Hu). exists K, (Rmin d 1).
  split; [exact HK|]. split; [apply Rmin_glb_lt; lra|]. intros t Ht.
  pose proof (Rmin_l d 1). pose proof (Rmin_r d 1). specialize (Hu t ltac:(lra)).
  eapply Rle_trans; [exact Hu|]. apply Rmult_le_compat_l; [exact HK|].
  replace q with (r + (q - r))%nat by lia. rewrite pow_add. rewrite <- (Rmult_1_r (Rabs t ^ r)) at 2.
  apply Rmult_le_compat_l; [apply pow_le, Rabs_pos|]. rewrite <- (pow1 (q - r)). apply pow_incr. split; [apply Rabs_pos|lra].
Qed.

Lemma big_pow : forall q c, big q (fun t => c * t ^ q).
Proof.
  intros q c. exists (Rabs c), 1. split; [apply Rabs_pos|]. split; [lra|]. intros t _. rewrite Rabs_mult, <- RPow_abs. lra.
Qed.
Lemma big_0 : forall q, big q (fun _ => 0).
Proof. intros q. apply (big_ext q (fun t => 0 * t ^ q)); [intros; ring|apply big_pow]. Qed.
Lemma big_const : forall c, big 0 (fun _ => c).
Proof. intros c. apply (big_ext 0 (fun t => c * t ^ 0)); [intros; cbn; ring|apply big_pow]. Qed.
Lemma big_scal : forall q c u, big q u -> big q (fun t => c * u t).
Proof. intros q c u H. exact (big_mul 0 q _ _ (big_const c) H). Qed.
Lemma big_rsum : forall q n (u : nat -> R -> R), (forall j, (j < n)%nat -> big q (u j)) -> big q (fun t => rsum n (fun j => u j t)).
Proof.
  intros q n. induction n as [|n IH]; intros u H; [apply big_0|]. cbn [rsum].
  apply big_plus; [apply IH; intros; apply H; lia|apply H; lia].
Qed.
Lemma big_abs : forall q u, big q u -> big q (fun t => Rabs (u t)).
Proof. intros q u (K & d & HK & Hd & Hu). exists K, d. split; [exact HK|]. split; [exact Hd|]. intros t Ht. rewrite Rabs_Rabsolu. apply Hu. exact Ht. Qed.
Lemma big_power : forall u k, big 1 u -> big k (fun t => u t ^ k).
Proof. intros u k H. induction k as [|k IH]; [apply (big_const 1)|]. exact (big_mul 1 k _ _ H IH). Qed.

(** A function of order one stays within any bound near 0. *)
Lemma big_small : forall u e, big 1 u -> 0 < e -> exists d, 0 < d /\ forall t, Rabs t <= d -> Rabs (u t) <= e.
Proof.
  intros u e (K & d & HK & Hd & Hu) He. exists (Rmin d (e / (K + 1))).
  assert (0 < e / (K + 1)) by (apply Rdiv_lt_0_compat; lra).
  split; [apply Rmin_glb_lt; lra|]. intros t Ht. pose proof (Rmin_l d (e / (K + 1))). pose proof (Rmin_r d (e / (K + 1))).
  eapply Rle_trans; [apply Hu; lra|]. rewrite pow_1. apply Rle_trans with ((K + 1) * (e / (K + 1))).
  - apply Rmult_le_compat; [exact HK|apply Rabs_pos|lra|lra].
  - right. field. lra.
Qed.
Lemma big_small_all : forall n (u : nat -> R -> R) e, (forall j, (j < n)%nat -> big 1 (u j)) -> 0 < e ->
    exists d, 0 < d /\ forall t, Rabs t <= d -> forall j, (j < n)%nat -> Rabs (u j t) <= e.
Proof.
  induction n as [|n IH]; intros u e H He.
  - exists 1. split; [lra|]. intros. lia.
  - destruct (IH u e) as (d & Hd & Hu); [intros; apply H; lia|exact He|].
    destruct (big_small (u n) e) as (d' & Hd' & Hn); [apply H; lia|exact He|].
    exists (Rmin d d'). split; [apply Rmin_glb_lt; assumption|]. intros t Ht j Hj.
    pose proof (Rmin_l d d'). pose proof (Rmin_r d d').
    destruct (Nat.eq_dec j n) as [->|Hne]; [apply Hn; lra|apply Hu; [lra|lia]].
Qed.

(** A bound by a function of order q, near 0. *)
Lemma big_dominated : forall q u v d, 0 < d -> (forall t, Rabs t <= d -> Rabs (u t) <= v t) -> big q v -> big q u.
Proof.
  intros q u v d Hd H (K & d' & HK & Hd' & Hv). exists K, (Rmin d d'). split; [exact HK|].
  split; [apply Rmin_glb_lt; assumption|]. intros t Ht. pose proof (Rmin_l d d'). pose proof (Rmin_r d d').
  specialize (H t ltac:(lra)). specialize (Hv t ltac:(lra)). pose proof (Rle_abs (v t)). lra.
Qed.

(** ** Expansions u = t a + t^2 b + t^3 c + O(t^(q+1)), for q = 2 (then c is free) and q = 3 *)

Definition jet (q : nat) (u : R -> R) (a b c : R) : Prop := big (S q) (fun t => u t - (t * a + t ^ 2 * b + t ^ 3 * c)).

Lemma jet_ext : forall q u v a b c, (forall t, u t = v t) -> jet q u a b c -> jet q v a b c.
Proof. intros q u v a b c H Hu. refine (big_ext _ _ _ _ Hu). intros t. cbv beta. rewrite H. reflexivity. Qed.
Lemma jet_eq : forall q u a b c a' b' c', a = a' -> b = b' -> c = c' -> jet q u a b c -> jet q u a' b' c'.
Proof. intros; subst; assumption. Qed.
Lemma jet_plus : forall q u v a b c a' b' c', jet q u a b c -> jet q v a' b' c' -> jet q (fun t => u t + v t) (a + a') (b + b') (c + c').
Proof. intros q u v a b c a' b' c' H H'. refine (big_ext _ _ _ _ (big_plus _ _ _ H H')). intros t. cbv beta. ring. Qed.
Lemma jet_scal : forall q k u a b c, jet q u a b c -> jet q (fun t => k * u t) (k * a) (k * b) (k * c).
Proof. intros q k u a b c H. refine (big_ext _ _ _ _ (big_scal _ k _ H)). intros t. cbv beta. ring. Qed.
Lemma jet_rsum : forall q n (u : nat -> R -> R) a b c, (forall j, (j < n)%nat -> jet q (u j) (a j) (b j) (c j)) ->
    jet q (fun t => rsum n (fun j => u j t)) (rsum n a) (rsum n b) (rsum n c).
Proof.
  intros q n u a b c. induction n as [|n IH]; intros H.
  - refine (big_ext _ _ _ _ (big_0 _)). intros t. cbn. ring.
  - cbn [rsum]. apply jet_plus; [apply IH; intros; apply H; lia|apply H; lia].
Qed.
Lemma jet_exact : forall q a b c, jet q (fun t => t * a + t ^ 2 * b + t ^ 3 * c) a b c.
Proof. intros q a b c. refine (big_ext _ _ _ _ (big_0 _)). intros t. cbv beta. ring. Qed.
Lemma jet_line : forall q a, jet q (fun t => t * a) a 0 0.
Proof. intros q a. refine (jet_ext _ _ _ _ _ _ _ (jet_exact q a 0 0)). intros t. ring. Qed.

Lemma jet_big1 : forall q u a b c, (1 <= q)%nat -> jet q u a b c -> big 1 u.
Proof.
  intros q u a b c Hq H.
  apply (big_ext 1 (fun t => (u t - (t * a + t ^ 2 * b + t ^ 3 * c)) + (a * t ^ 1 + (b * t ^ 2 + c * t ^ 3)))); [intros; ring|].
  apply big_plus; [apply (big_weak (S q)); [lia|exact H]|].
  apply big_plus; [apply big_pow|]. apply big_plus; [apply (big_weak 2); [lia|apply big_pow]|apply (big_weak 3); [lia|apply big_pow]].
Qed.

(** With q <= 3 the terms beyond t^3 do not matter; with q = 2 those in t^3 neither. *)
Lemma jet_mul : forall q u v a b c a' b' c', (1 <= q <= 3)%nat -> jet q u a b c -> jet q v a' b' c' ->
    jet q (fun t => u t * v t) 0 (a * a') (a * b' + b * a').
Proof.
  intros q u v a b c a' b' c' Hq Hu Hv. unfold jet in *.
  set (p := fun t => t * a + t ^ 2 * b + t ^ 3 * c) in *.
  set (p' := fun t => t * a' + t ^ 2 * b' + t ^ 3 * c') in *.
  apply (big_ext (S q) (fun t => (u t - p t) * v t + ((v t - p' t) * p t
           + ((a * c' + b * b' + c * a') * t ^ 4 + ((b * c' + c * b') * t ^ 5 + c * c' * t ^ 6))))).
  { intros t. unfold p, p'. ring. }
  assert (B1 : big 1 v) by (apply (jet_big1 q v a' b' c'); [lia|exact Hv]).
  assert (B2 : big 1 p).
  { apply (big_ext 1 (fun t => a * t ^ 1 + (b * t ^ 2 + c * t ^ 3))); [intros; unfold p; ring|].
    apply big_plus; [apply big_pow|]. apply big_plus; [apply (big_weak 2); [lia|apply big_pow]|apply (big_weak 3); [lia|apply big_pow]]. }
  apply big_plus; [apply (big_weak (S q + 1)); [lia|exact (big_mul _ _ _ _ Hu B1)]|].
  apply big_plus; [apply (big_weak (S q + 1)); [lia|exact (big_mul _ _ _ _ Hv B2)]|].
  apply big_plus; [apply (big_weak 4); [lia|apply big_pow]|].
  apply big_plus; [apply (big_weak 5); [lia|apply big_pow]|apply (big_weak 6); [lia|apply big_pow]].
Qed.

(** With q = 2 the coefficient of t^3 is free. *)
Lemma jet2_free : forall u a b c c', jet 2 u a b c -> jet 2 u a b c'.
Proof.
  intros u a b c c' H. apply (big_ext 3 (fun t => (u t - (t * a + t ^ 2 * b + t ^ 3 * c)) + (c - c') * t ^ 3)); [intros; ring|].
  apply big_plus; [exact H|apply big_pow].
Qed.

Lemma jet_lin : forall q n A (u : R -> vector) a b c i, (forall j, (j < n)%nat -> jet q (fun t => u t j) (a j) (b j) (c j)) ->
    jet q (fun t => lin n A (u t) i) (lin n A a i) (lin n A b i) (lin n A c i).
Proof.
  intros q n A u a b c i H. unfold lin. apply (jet_rsum q n (fun j t => A i j * u t j)). intros j Hj. apply jet_scal. apply H. exact Hj.
Qed.
Lemma jet_bil : forall q n m A (u v : R -> vector) a b c a' b' c' i, (1 <= q <= 3)%nat ->
    (forall j, (j < n)%nat -> jet q (fun t => u t j) (a j) (b j) (c j)) ->
    (forall j, (j < m)%nat -> jet q (fun t => v t j) (a' j) (b' j) (c' j)) ->
    jet q (fun t => bil n m A (u t) (v t) i) 0 (bil n m A a a' i) (bil n m A a b' i + bil n m A b a' i).
Proof.
  intros q n m A u v a b c a' b' c' i Hq H H'. unfold bil.
  eapply jet_eq; [| | |apply (jet_rsum q n (fun j t => rsum m (fun k => A i j k * u t j * v t k))
            (fun j => rsum m (fun k => A i j k * 0)) (fun j => rsum m (fun k => A i j k * (a j * a' k)))
            (fun j => rsum m (fun k => A i j k * (a j * b' k + b j * a' k))))].
  - apply rsum_0. intros. apply rsum_0. intros. ring.
  - apply rsum_ext. intros j Hj. apply rsum_ext. intros k Hk. ring.
  - rewrite <- rsum_plus. apply rsum_ext. intros j Hj. rewrite <- rsum_plus. apply rsum_ext. intros k Hk. ring.
  - intros j Hj. apply (jet_rsum q m (fun k t => A i j k * u t j * v t k)). intros k Hk.
    apply (jet_ext q (fun t => A i j k * (u t j * v t k))); [intros; ring|]. apply jet_scal.
    apply (jet_mul q _ _ (a j) (b j) (c j) (a' k) (b' k) (c' k)); auto.
Qed.
Lemma jet_tri : forall q n m p A (u v w : R -> vector) a b c a' b' c' a'' b'' c'' i, (1 <= q <= 3)%nat ->
    (forall j, (j < n)%nat -> jet q (fun t => u t j) (a j) (b j) (c j)) ->
    (forall j, (j < m)%nat -> jet q (fun t => v t j) (a' j) (b' j) (c' j)) ->
    (forall j, (j < p)%nat -> jet q (fun t => w t j) (a'' j) (b'' j) (c'' j)) ->
    jet q (fun t => tri n m p A (u t) (v t) (w t) i) 0 0 (tri n m p A a a' a'' i).
Proof.
  intros q n m p A u v w a b c a' b' c' a'' b'' c'' i Hq H H' H''. unfold tri.
  eapply jet_eq; [| | |apply (jet_rsum q n (fun j t => rsum m (fun k => rsum p (fun l => A i j k l * u t j * v t k * w t l)))
            (fun j => rsum m (fun k => rsum p (fun l => A i j k l * 0))) (fun j => rsum m (fun k => rsum p (fun l => A i j k l * 0)))
            (fun j => rsum m (fun k => rsum p (fun l => A i j k l * (a j * a' k * a'' l)))))].
  - apply rsum_0. intros. apply rsum_0. intros. apply rsum_0. intros. ring.
  - apply rsum_0. intros. apply rsum_0. intros. apply rsum_0. intros. ring.
  - apply rsum_ext. intros j Hj. apply rsum_ext. intros k Hk. apply rsum_ext. intros l Hl. ring.
  - intros j Hj. apply (jet_rsum q m (fun k t => rsum p (fun l => A i j k l * u t j * v t k * w t l))). intros k Hk.
    apply (jet_rsum q p (fun l t => A i j k l * u t j * v t k * w t l)). intros l Hl.
    apply (jet_ext q (fun t => A i j k l * (u t j * v t k * w t l))); [intros; ring|]. apply jet_scal.
    eapply jet_eq; [| | |apply (jet_mul q (fun t => u t j * v t k) _ 0 (a j * a' k) (a j * b' k + b j * a' k) (a'' l) (b'' l) (c'' l) Hq);
                         [apply (jet_mul q _ _ (a j) (b j) (c j) (a' k) (b' k) (c' k)); auto|auto]]; ring.
Qed.

(** A jet is preserved by a change of higher order. *)
Lemma jet_near : forall q u v a b c, big (S q) (fun t => u t - v t) -> jet q v a b c -> jet q u a b c.
Proof.
  intros q u v a b c H Hv. refine (big_ext _ _ _ _ (big_plus _ _ _ H Hv)). intros t. cbv beta. ring.
Qed.

Lemma remainder : forall q n (f : vector -> vector) (P : vector -> nat -> R) (u : R -> vector) K d i,
    0 < d -> (forall v, (forall j, (j < n)%nat -> Rabs (v j) <= d) -> Rabs (f v i - P v i) <= K * total n v ^ q) ->
    (forall j, (j < n)%nat -> big 1 (fun t => u t j)) -> big q (fun t => f (u t) i - P (u t) i).
Proof.
  intros q n f P u K d i Hd Hf Hu.
  destruct (big_small_all n (fun j t => u t j) d Hu Hd) as (d' & Hd' & Hs).
  apply (big_dominated q _ (fun t => K * total n (u t) ^ q) d' Hd').
  - intros t Ht. apply Hf. intros j Hj. apply Hs; assumption.
  - apply big_scal. apply big_power. unfold total. apply (big_rsum 1 n (fun j t => Rabs (u t j))). intros j Hj. apply big_abs. apply Hu. exact Hj.
Qed.

Lemma jet_expands2 : forall n m f A1 A2 (u : R -> vector) a b c, expands2 n m f A1 A2 ->
    (forall j, (j < n)%nat -> jet 2 (fun t => u t j) (a j) (b j) (c j)) ->
    forall i, (i < m)%nat -> jet 2 (fun t => f (u t) i) (lin n A1 a i) (lin n A1 b i + / 2 * bil n n A2 a a i) 0.
Proof.
  intros n m f A1 A2 u a b c (K & d & Hd & Hf) Hu i Hi.
  apply (jet_near 2 _ (fun t => poly2 n A1 A2 (u t) i)).
  - apply (remainder 3 n f (poly2 n A1 A2) u K d i Hd); [intros v Hv; apply Hf; assumption|].
    intros j Hj. apply (jet_big1 2 _ (a j) (b j) (c j)); [lia|apply Hu; exact Hj].
  - apply (jet2_free _ _ _ (lin n A1 c i + / 2 * (bil n n A2 a b i + bil n n A2 b a i))).
    eapply jet_eq; [| | |apply jet_plus; [apply (jet_lin 2 n A1 u a b c i Hu)|apply jet_scal; apply (jet_bil 2 n n A2 u u a b c a b c i); [lia|exact Hu|exact Hu]]]; ring.
Qed.
Lemma jet_poly3 : forall n A1 A2 A3 (u : R -> vector) a b c i,
    (forall j, (j < n)%nat -> jet 3 (fun t => u t j) (a j) (b j) (c j)) ->
    jet 3 (fun t => poly3 n A1 A2 A3 (u t) i) (lin n A1 a i) (lin n A1 b i + / 2 * bil n n A2 a a i)
      (lin n A1 c i + / 2 * (bil n n A2 a b i + bil n n A2 b a i) + / 6 * tri n n n A3 a a a i).
Proof.
  intros n A1 A2 A3 u a b c i Hu. unfold poly3, poly2.
  eapply jet_eq; [| | |apply jet_plus; [apply jet_plus; [apply (jet_lin 3 n A1 u a b c i Hu)|
      apply jet_scal; apply (jet_bil 3 n n A2 u u a b c a b c i); [lia|exact Hu|exact Hu]]|
      apply jet_scal; apply (jet_tri 3 n n n A3 u u u a b c a b c a b c i); [lia|exact Hu|exact Hu|exact Hu]]]; ring.
Qed.
Lemma jet_expands3 : forall n m f A1 A2 A3 (u : R -> vector) a b c, expands3 n m f A1 A2 A3 ->
    (forall j, (j < n)%nat -> jet 3 (fun t => u t j) (a j) (b j) (c j)) ->
    forall i, (i < m)%nat -> jet 3 (fun t => f (u t) i) (lin n A1 a i) (lin n A1 b i + / 2 * bil n n A2 a a i)
      (lin n A1 c i + / 2 * (bil n n A2 a b i + bil n n A2 b a i) + / 6 * tri n n n A3 a a a i).
Proof.
  intros n m f A1 A2 A3 u a b c (K & d & Hd & Hf) Hu i Hi.
  apply (jet_near 3 _ (fun t => poly3 n A1 A2 A3 (u t) i)).
  - apply (remainder 4 n f (poly3 n A1 A2 A3) u K d i Hd); [intros v Hv; apply Hf; assumption|].
    intros j Hj. apply (jet_big1 3 _ (a j) (b j) (c j)); [lia|apply Hu; exact Hj].
  - apply jet_poly3. exact Hu.
Qed.

(** A function whose expansion vanishes is of the next order. *)
Lemma jet_zero : forall q u, jet q u 0 0 0 -> big (S q) u.
Proof. intros q u H. refine (big_ext _ _ _ _ H). intros t. cbv beta. ring. Qed.
Lemma big_components : forall q n (u : nat -> R -> R), (forall i, (i < n)%nat -> big q (u i)) ->
    exists K d, 0 < d /\ forall t, Rabs t <= d -> forall i, (i < n)%nat -> Rabs (u i t) <= K * Rabs t ^ q.
Proof.
  intros q n u. induction n as [|n IH]; intros H.
  - exists 0, 1. split; [lra|]. intros. lia.
  - destruct IH as (K & d & Hd & Hu); [intros; apply H; lia|]. destruct (H n ltac:(lia)) as (K' & d' & HK' & Hd' & Hn).
    exists (Rmax K K'), (Rmin d d'). split; [apply Rmin_glb_lt; assumption|]. intros t Ht i Hi.
    pose proof (Rmin_l d d'). pose proof (Rmin_r d d').
    assert (Hp : 0 <= Rabs t ^ q) by (apply pow_le, Rabs_pos).
    destruct (Nat.eq_dec i n) as [->|Hne].
    + eapply Rle_trans; [apply Hn; lra|]. apply Rmult_le_compat_r; [exact Hp|apply Rmax_r].
    + eapply Rle_trans; [apply Hu; [lra|lia]|]. apply Rmult_le_compat_r; [exact Hp|apply Rmax_l].
Qed.
