(** Contractions of trilinear maps. *)
From Coq Require Import Reals List Arith Lia Lra.
From Verif.Base Require Import Prelude Sums.
From Verif.Spec Require Import LinearAlgebra HigherOrder.
From Verif.Proofs Require Import Jets HigherOrderAlgebra HigherOrderCubic HigherOrderProofs.
Open Scope R_scope.

Lemma tri_add_coef : forall n m p (A B : nat -> nat -> nat -> nat -> R) u v w i,
    tri n m p (fun i j k l => A i j k l + B i j k l) u v w i = tri n m p A u v w i + tri n m p B u v w i.
Proof. intros. unfold tri. do 2 (rewrite <- rsum_plus; apply rsum_ext; intros). rewrite <- rsum_plus. apply rsum_ext. intros. ring. Qed.
Lemma tri_scal_coef : forall n m p c (A : nat -> nat -> nat -> nat -> R) u v w i,
    tri n m p (fun i j k l => c * A i j k l) u v w i = c * tri n m p A u v w i.
Proof. intros. unfold tri. do 2 (rewrite <- rsum_scal; apply rsum_ext; intros). rewrite <- rsum_scal. apply rsum_ext. intros. ring. Qed.
Lemma tri_zero_coef : forall n m p (A : nat -> nat -> nat -> nat -> R) u v w i,
    (forall j k l, (j < n)%nat -> (k < m)%nat -> (l < p)%nat -> A i j k l = 0) -> tri n m p A u v w i = 0.
Proof. intros n m p A u v w i H. apply rsum_0. intros j Hj. apply rsum_0. intros k Hk. apply rsum_0. intros l Hl. rewrite H by assumption. ring. Qed.
Lemma tri_rsum : forall n m p q (B : nat -> nat -> nat -> nat -> nat -> R) u v w i,
    tri n m p (fun i j k l => rsum q (fun a => B a i j k l)) u v w i = rsum q (fun a => tri n m p (B a) u v w i).
Proof.
  intros n m p q B u v w i. induction q as [|q IH].
  - cbn. apply tri_zero_coef. reflexivity.
  - cbn [rsum]. rewrite <- IH. apply (tri_add_coef n m p (fun i j k l => rsum q (fun a => B a i j k l)) (B q)).
Qed.
Lemma tri_prod_21 : forall n m p c G H u v w i,
    tri n m p (fun _ j k l => c * G j k * H l) u v w i = c * rsum n (fun j => rsum m (fun k => G j k * u j * v k)) * rsum p (fun l => H l * w l).
Proof.
  intros. set (T := rsum p (fun l => H l * w l)). transitivity (rsum n (fun j => rsum m (fun k => G j k * u j * v k)) * (c * T)); [|ring].
  unfold tri. rewrite <- rsum_scal_r. apply rsum_ext. intros j _. rewrite <- rsum_scal_r. apply rsum_ext. intros k _.
  unfold T. rewrite <- !rsum_scal. apply rsum_ext. intros. ring.
Qed.
Lemma tri_prod_12 : forall n m p c G H u v w i,
    tri n m p (fun _ j k l => c * G j * H k l) u v w i = c * rsum n (fun j => G j * u j) * rsum m (fun k => rsum p (fun l => H k l * v k * w l)).
Proof.
  intros. set (T := rsum m (fun k => rsum p (fun l => H k l * v k * w l))). transitivity (rsum n (fun j => G j * u j) * (c * T)); [|ring].
  unfold tri. rewrite <- rsum_scal_r. apply rsum_ext. intros j _. unfold T. rewrite <- !rsum_scal. apply rsum_ext. intros k _.
  rewrite <- !rsum_scal. apply rsum_ext. intros. ring.
Qed.
Lemma tri_prod_111 : forall n m p c G H I u v w i,
    tri n m p (fun _ j k l => c * G j * H k * I l) u v w i = c * rsum n (fun j => G j * u j) * rsum m (fun k => H k * v k) * rsum p (fun l => I l * w l).
Proof.
  intros. set (T := rsum p (fun l => I l * w l)). transitivity (rsum n (fun j => G j * u j) * (rsum m (fun k => H k * v k) * (c * T))); [|ring].
  unfold tri. rewrite <- !rsum_scal_r. apply rsum_ext. intros j _. rewrite <- rsum_scal. apply rsum_ext. intros k _.
  unfold T. rewrite <- !rsum_scal. apply rsum_ext. intros. ring.
Qed.

(** Compositions. *)
Lemma tri_of_lin : forall n m p q (A : nat -> nat -> R) (B : nat -> nat -> nat -> nat -> R) u v w i,
    tri n m p (fun i j k l => rsum q (fun c => A i c * B c j k l)) u v w i = lin q A (tri n m p B u v w) i.
Proof.
  intros n m p q A B u v w i. rewrite (tri_rsum n m p q (fun c i j k l => A i c * B c j k l)). apply rsum_ext. intros c _.
  unfold tri. do 2 (rewrite <- rsum_scal; apply rsum_ext; intros). rewrite <- rsum_scal. apply rsum_ext. intros. ring.
Qed.
Lemma tri_comp_21 : forall n m r p q (F : nat -> nat -> nat -> R) (G : nat -> nat -> nat -> R) (H : nat -> nat -> R) u v w i,
    tri n m r (fun i j k l => rsum p (fun a => rsum q (fun b => F i a b * G a j k * H b l))) u v w i = bil p q F (bil n m G u v) (lin r H w) i.
Proof.
  intros. rewrite (tri_rsum n m r p (fun a i j k l => rsum q (fun b => F i a b * G a j k * H b l))). apply rsum_ext. intros a _.
  rewrite (tri_rsum n m r q (fun b i j k l => F i a b * G a j k * H b l)). apply rsum_ext. intros b _. exact (tri_prod_21 n m r (F i a b) (G a) (H b) u v w i).
Qed.
Lemma tri_comp_12 : forall n m r p q (F : nat -> nat -> nat -> R) (G : nat -> nat -> R) (H : nat -> nat -> nat -> R) u v w i,
    tri n m r (fun i j k l => rsum p (fun a => rsum q (fun b => F i a b * G a j * H b k l))) u v w i = bil p q F (lin n G u) (bil m r H v w) i.
Proof.
  intros. rewrite (tri_rsum n m r p (fun a i j k l => rsum q (fun b => F i a b * G a j * H b k l))). apply rsum_ext. intros a _.
  rewrite (tri_rsum n m r q (fun b i j k l => F i a b * G a j * H b k l)). apply rsum_ext. intros b _. exact (tri_prod_12 n m r (F i a b) (G a) (H b) u v w i).
Qed.
Lemma tri_comp_111 : forall n m r p q s (F : nat -> nat -> nat -> nat -> R) (G H I : nat -> nat -> R) u v w i,
    tri n m r (fun i j k l => rsum p (fun a => rsum q (fun b => rsum s (fun c => F i a b c * G a j * H b k * I c l)))) u v w i
    = tri p q s F (lin n G u) (lin m H v) (lin r I w) i.
Proof.
  intros. rewrite (tri_rsum n m r p (fun a i j k l => rsum q (fun b => rsum s (fun c => F i a b c * G a j * H b k * I c l)))). apply rsum_ext. intros a _.
  rewrite (tri_rsum n m r q (fun b i j k l => rsum s (fun c => F i a b c * G a j * H b k * I c l))). apply rsum_ext. intros b _.
  rewrite (tri_rsum n m r s (fun c i j k l => F i a b c * G a j * H b k * I c l)). apply rsum_ext. intros c _.
  exact (tri_prod_111 n m r (F i a b c) (G a) (H b) (I c) u v w i).
Qed.
(** One or two of the arguments composed. *)
Lemma tri_comp_3 : forall n m r p (F : nat -> nat -> nat -> nat -> R) (X : nat -> nat -> R) u v w i,
    tri n m r (fun i j k l => rsum p (fun a => F i j k a * X a l)) u v w i = tri n m p F u v (lin r X w) i.
Proof.
  intros. unfold tri. apply rsum_ext. intros j _. apply rsum_ext. intros k _. unfold lin.
  rewrite (rsum_ext r _ (fun l => rsum p (fun a => F i j k a * u j * v k * (X a l * w l)))) by (intros; rewrite <- !rsum_scal_r; apply rsum_ext; intros; ring).
  rewrite rsum_swap. apply rsum_ext. intros a _. rewrite rsum_scal. reflexivity.
Qed.
Lemma tri_comp_23 : forall n m r p q (F : nat -> nat -> nat -> nat -> R) (X Y : nat -> nat -> R) u v w i,
    tri n m r (fun i j k l => rsum p (fun a => rsum q (fun b => F i j a b * X a k * Y b l))) u v w i = tri n p q F u (lin m X v) (lin r Y w) i.
Proof.
  intros. unfold tri. apply rsum_ext. intros j _.
  pose proof (bil_comp m r p q (fun _ a b => F i j a b * u j) X Y v w 0%nat) as E. unfold bil in E.
  etransitivity; [|etransitivity; [exact E|]].
  - apply rsum_ext. intros k _. apply rsum_ext. intros l _. rewrite <- !rsum_scal_r. apply rsum_ext. intros a _. rewrite <- !rsum_scal_r. apply rsum_ext. intros. ring.
  - apply rsum_ext. intros a _. apply rsum_ext. intros b _. ring.
Qed.
Lemma tri_bil_23 : forall n m r p (F : nat -> nat -> nat -> R) (Y : nat -> nat -> nat -> R) u v w i,
    tri n m r (fun i j k l => rsum p (fun a => F i j a * Y a k l)) u v w i = bil n p F u (bil m r Y v w) i.
Proof.
  intros. unfold tri, bil. apply rsum_ext. intros j _.
  pose proof (bil_of_lin m r p (fun _ a => F i j a * u j) Y v w 0%nat) as E. unfold bil, lin in E. rewrite <- E.
  apply rsum_ext. intros k _. apply rsum_ext. intros l _. rewrite <- !rsum_scal_r. apply rsum_ext. intros. ring.
Qed.

(** ** Arguments with a null part *)
Lemma sum_head : forall (a b : nat) (F : nat -> R) u, rsum (a + b) (fun j => F j * glue a u zero j) = rsum a (fun j => F j * u j).
Proof.
  intros. rewrite rsum_split, (rsum_0 b) by (intros; rewrite glue_ge; unfold zero; ring). rewrite Rplus_0_r. apply rsum_ext. intros. rewrite glue_lt by assumption. reflexivity.
Qed.
Lemma sum_tail : forall (a b : nat) (F : nat -> R) u, rsum (a + b) (fun j => F j * glue a zero u j) = rsum b (fun j => F (a + j)%nat * u j).
Proof.
  intros. rewrite rsum_split, (rsum_0 a) by (intros; rewrite glue_lt by assumption; unfold zero; ring). rewrite Rplus_0_l. apply rsum_ext. intros. rewrite glue_ge. reflexivity.
Qed.
Lemma bil_head_1 : forall (a b m : nat) A u v i, bil (a + b) m A (glue a u zero) v i = bil a m A u v i.
Proof.
  intros. unfold bil. rewrite (rsum_ext (a + b) _ (fun j => rsum m (fun k => A i j k * v k) * glue a u zero j)) by (intros; rewrite <- rsum_scal_r; apply rsum_ext; intros; ring).
  rewrite sum_head. apply rsum_ext. intros. rewrite <- rsum_scal_r. apply rsum_ext. intros. ring.
Qed.
Lemma bil_tail_1 : forall (a b m : nat) A u v i, bil (a + b) m A (glue a zero u) v i = bil b m (fun i j k => A i (a + j)%nat k) u v i.
Proof.
  intros. unfold bil. rewrite (rsum_ext (a + b) _ (fun j => rsum m (fun k => A i j k * v k) * glue a zero u j)) by (intros; rewrite <- rsum_scal_r; apply rsum_ext; intros; ring).
  rewrite sum_tail. apply rsum_ext. intros. rewrite <- rsum_scal_r. apply rsum_ext. intros. ring.
Qed.
Lemma bil_flip : forall n m A u v i, bil n m A u v i = bil m n (fun i k j => A i j k) v u i.
Proof. intros. unfold bil. rewrite rsum_swap. apply rsum_ext. intros. apply rsum_ext. intros. ring. Qed.
Lemma bil_head_2 : forall (n a b : nat) A u v i, bil n (a + b) A u (glue a v zero) i = bil n a A u v i.
Proof. intros. rewrite bil_flip, bil_head_1, bil_flip. reflexivity. Qed.
Lemma bil_tail_2 : forall (n a b : nat) A u v i, bil n (a + b) A u (glue a zero v) i = bil n b (fun i j k => A i j (a + k)%nat) u v i.
Proof. intros. rewrite bil_flip, bil_tail_1, bil_flip. reflexivity. Qed.

Lemma tri_as_bil : forall n m p A u v w i, tri n m p A u v w i = rsum n (fun j => bil m p (fun _ k l => A i j k l) v w 0%nat * u j).
Proof. intros. unfold tri, bil. apply rsum_ext. intros. rewrite <- rsum_scal_r. apply rsum_ext. intros. rewrite <- rsum_scal_r. apply rsum_ext. intros. ring. Qed.
Lemma tri_head_1 : forall (a b m p : nat) A u v w i, tri (a + b) m p A (glue a u zero) v w i = tri a m p A u v w i.
Proof. intros. rewrite !tri_as_bil. apply sum_head. Qed.
Lemma tri_tail_1 : forall (a b m p : nat) A u v w i, tri (a + b) m p A (glue a zero u) v w i = tri b m p (fun i j k l => A i (a + j)%nat k l) u v w i.
Proof. intros. rewrite !tri_as_bil. apply (sum_tail a b (fun j => bil m p (fun _ k l => A i j k l) v w 0%nat)). Qed.
Lemma tri_head_2 : forall (n a b p : nat) A u v w i, tri n (a + b) p A u (glue a v zero) w i = tri n a p A u v w i.
Proof. intros. rewrite !tri_as_bil. apply rsum_ext. intros. rewrite bil_head_1. reflexivity. Qed.
Lemma tri_tail_2 : forall (n a b p : nat) A u v w i, tri n (a + b) p A u (glue a zero v) w i = tri n b p (fun i j k l => A i j (a + k)%nat l) u v w i.
Proof. intros. rewrite !tri_as_bil. apply rsum_ext. intros j _. rewrite (bil_tail_1 a b p (fun _ k l => A i j k l)). reflexivity. Qed.
Lemma tri_head_3 : forall (n m a b : nat) A u v w i, tri n m (a + b) A u v (glue a w zero) i = tri n m a A u v w i.
Proof. intros. rewrite !tri_as_bil. apply rsum_ext. intros. rewrite bil_head_2. reflexivity. Qed.
Lemma tri_tail_3 : forall (n m a b : nat) A u v w i, tri n m (a + b) A u v (glue a zero w) i = tri n m b (fun i j k l => A i j k (a + l)%nat) u v w i.
Proof. intros. rewrite !tri_as_bil. apply rsum_ext. intros j _. rewrite (bil_tail_2 m a b (fun _ k l => A i j k l)). reflexivity. Qed.

(** Mean over shocks of the map of a direction and twice the shock. *)
Lemma mean_tri_covariance : forall M n n_e p eps sigma (A : nat -> nat -> nat -> nat -> R) h i, shocks M n_e p eps sigma ->
    mean M p (fun k => tri n n_e n_e A h (eps k) (eps k)) i = lin n (fun i j => rsum n_e (fun k => rsum n_e (fun l => A i j k l * sigma k l))) h i.
Proof.
  intros M n n_e p eps sigma A h i H. unfold mean, lin.
  rewrite (rsum_ext M _ (fun k => rsum n (fun j => p k * bil n_e n_e (fun _ a b => A i j a b) (eps k) (eps k) 0%nat * h j))).
  - rewrite rsum_swap. apply rsum_ext. intros j _. rewrite rsum_scal_r. f_equal.
    exact (mean_covariance M n_e p eps sigma (fun _ a b => A i j a b) 0%nat H).
  - intros k _. rewrite tri_as_bil, <- rsum_scal. apply rsum_ext. intros. ring.
Qed.
