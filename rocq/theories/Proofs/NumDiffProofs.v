From Coq Require Import Reals List Arith Lia Lra.
From Verif.Base Require Import Prelude Sums.
From Verif.Model Require Import NumDiff.
From Verif.Spec Require Import LinearAlgebra Calculus.
Import ListNotations.
Open Scope R_scope.

Lemma poly2_deriv : forall a b c, derivable_pt_lim (fun h => c + b * h + a * h ^ 2) 0 b.
Proof.
  intros a b c eps Heps. pose proof (Rabs_pos a) as Ha.
  assert (Hd : 0 < eps / (Rabs a + 1)) by (apply Rdiv_lt_0_compat; lra).
  exists (mkposreal _ Hd). intros h Hh Hlt. cbn in Hlt.
  replace ((c + b * (0 + h) + a * (0 + h) ^ 2 - (c + b * 0 + a * 0 ^ 2)) / h - b) with (a * h) by (field; assumption).
  rewrite Rabs_mult. pose proof (Rabs_pos h).
  assert (Rabs h * (Rabs a + 1) < eps).
  { apply Rmult_lt_reg_r with (/ (Rabs a + 1)); [apply Rinv_0_lt_compat; lra|].
    rewrite Rmult_assoc, Rinv_r by lra. unfold Rdiv in Hlt. lra. }
  nra.
Qed.

Lemma deriv_transfer : forall (f g : R -> R) l, (forall h, f h = g h) -> derivable_pt_lim f 0 l -> derivable_pt_lim g 0 l.
Proof.
  intros f g l E H eps Heps. destruct (H eps Heps) as [d Hd]. exists d. intros h Hh Hlt.
  rewrite <- !E. apply Hd; assumption.
Qed.

Lemma MyJacobian_quadratic : forall eps f x i j,
    eps <> 0 ->
    quadratic_along (fun h => f (shift x j h) i) ->
    derivable_pt_lim (fun h => f (shift x j h) i) 0 (MyJacobian eps f x i j).
Proof.
  intros eps f x i j He (a & b & c & Hq). unfold MyJacobian. rewrite !Hq.
  replace ((c + b * eps + a * eps ^ 2 - (c + b * - eps + a * (- eps) ^ 2)) / eps / 2) with b by (field; assumption).
  apply (deriv_transfer (fun h => c + b * h + a * h ^ 2)); [intros; symmetry; apply Hq|]. apply poly2_deriv.
Qed.

Lemma mat_vec_shift : forall n A x i j h, (j < n)%nat ->
    mat_vec n A (shift x j h) i = mat_vec n A x i + A i j * h.
Proof.
  intros n A x i j h Hj. unfold mat_vec.
  rewrite (rsum_ext n _ (fun k => A i k * x k + (if Nat.eqb k j then A i k * h else 0))).
  - rewrite rsum_plus. f_equal. rewrite (rsum_single n j); [rewrite Nat.eqb_refl; reflexivity|assumption|].
    intros k _ Hk. apply Nat.eqb_neq in Hk. rewrite Hk. reflexivity.
  - intros k _. unfold shift. destruct (Nat.eqb k j); ring.
Qed.

Lemma MyJacobian_affine : forall n eps A b x i j,
    eps <> 0 -> (j < n)%nat ->
    MyJacobian eps (fun y k => mat_vec n A y k + b k) x i j = A i j.
Proof. intros n eps A b x i j He Hj. unfold MyJacobian. rewrite !mat_vec_shift by assumption. field; assumption. Qed.

Lemma serial_diff_affine : forall nx eps (A : nat -> nat -> nat -> R) (b : nat -> nat -> R) x n v i,
    eps <> 0 -> (i < nx)%nat ->
    serial_diff eps (fun y k w => mat_vec nx (A k) (y k) w + b k w) x n v i = A n v i.
Proof. intros. unfold serial_diff, shift_col. rewrite mat_vec_shift by assumption. field; assumption. Qed.

(** Forward differences are off by eps times the second-order coefficient. *)
Lemma serial_diff_quadratic : forall eps (f : (nat -> nat -> R) -> nat -> nat -> R) x n v i a b c,
    eps <> 0 ->
    (forall h, f (shift_col x i h) n v = c + b * h + a * h ^ 2) ->
    f x n v = c ->
    serial_diff eps f x n v i = b + a * eps.
Proof. intros eps f x n v i a b c He H H0. unfold serial_diff. rewrite H, H0. field; assumption. Qed.

Lemma numdiff1_quadratic : forall dv f x0 s ind obs,
    dv <> 0 ->
    quadratic_along (fun h => f (shift_row x0 ind h) s obs) ->
    derivable_pt_lim (fun h => f (shift_row x0 ind h) s obs) 0 (numdiff1 dv f x0 s ind obs).
Proof.
  intros dv f x0 s ind obs He (a & b & c & Hq). unfold numdiff1. rewrite !Hq.
  replace ((c + b * dv + a * dv ^ 2 - (c + b * - dv + a * (- dv) ^ 2)) / dv / 2) with b by (field; assumption).
  apply (deriv_transfer (fun h => c + b * h + a * h ^ 2)); [intros; symmetry; apply Hq|]. apply poly2_deriv.
Qed.

Lemma numdiff2_run : forall dv n f x0, exists D,
    numdiff2 true dv n f x0 = Ok D /\
    forall s ind obs, (ind < n)%nat ->
      D s ind obs = (f (shift x0 ind dv) s obs - f (shift x0 ind (- dv)) s obs) / dv / 2.
Proof.
  intros dv n f x0. unfold numdiff2.
  induction n as [|n IH]; [exists (fun _ _ _ => 0); split; [reflexivity | intros; lia]|].
  destruct IH as (D & E & H). cbn [for_range_res]. rewrite E. cbn [bind].
  eexists; split; [reflexivity|]. intros s ind obs Hi. cbn beta.
  destruct (Nat.eqb_spec ind n) as [->|Hn]; [reflexivity|]. apply H; lia.
Qed.

Lemma numdiff2_quadratic : forall dv n f x0, dv <> 0 ->
    exists D, numdiff2 true dv n f x0 = Ok D /\
      forall s ind obs, (ind < n)%nat ->
        quadratic_along (fun h => f (shift x0 ind h) s obs) ->
        derivable_pt_lim (fun h => f (shift x0 ind h) s obs) 0 (D s ind obs).
Proof.
  intros dv n f x0 He. destruct (numdiff2_run dv n f x0) as (D & E & H).
  exists D; split; [exact E|]. intros s ind obs Hi (a & b & c & Hq). rewrite (H _ _ _ Hi), !Hq.
  replace ((c + b * dv + a * dv ^ 2 - (c + b * - dv + a * (- dv) ^ 2)) / dv / 2) with b by (field; assumption).
  apply (deriv_transfer (fun h => c + b * h + a * h ^ 2)); [intros; symmetry; apply Hq|]. apply poly2_deriv.
Qed.

Lemma numdiff2_raises : forall dv n f x0, n <> 0%nat -> numdiff2 false dv n f x0 = Err ExcIndex.
Proof.
  intros dv n f x0. unfold numdiff2. induction n as [|n IH]; intros H; [congruence|].
  cbn [for_range_res]. destruct n as [|n]; [reflexivity|]. rewrite IH by discriminate. reflexivity.
Qed.

Lemma nth_set_nth : forall A (l : list A) i k a d, (i < length l)%nat ->
    nth k (set_nth l i a) d = if Nat.eqb k i then a else nth k l d.
Proof.
  induction l as [|h t IH]; intros i k a d Hi; [simpl in Hi; lia|].
  destruct i, k; simpl; try reflexivity. apply IH. simpl in Hi; lia.
Qed.

Lemma set_nth_length : forall A (l : list A) i a, length (set_nth l i a) = length l.
Proof. induction l as [|h t IH]; intros [|i] a; simpl; auto. Qed.

Lemma map_seq_nth : forall A (g : nat -> A) n k d, (k < n)%nat -> nth k (map g (seq 0 n)) d = g k.
Proof.
  intros A g n k d Hk. rewrite nth_indep with (d' := g 0%nat) by (rewrite map_length, seq_length; assumption).
  rewrite map_nth, seq_nth by assumption. reflexivity.
Qed.

(** compiler numdiff, square case. *)
Lemma numdiff_square : forall N fun_ args ds (A : nat -> nat -> nat -> nat -> R) (b : nat -> nat -> R),
    (forall l n v, fun_ l n v =
       b n v + rsum (length args) (fun i => mat_vec (fst (nth i args (0%nat, fun _ _ => 0))) (A i n) (nth i l (fun _ _ => 0) n) v)) ->
    numdiff N N fun_ args = Ok ds ->
    length ds = length args /\
    forall i n v j, (i < length args)%nat -> (j < fst (nth i args (0%nat, fun _ _ => 0%R)))%nat ->
      nth i ds (fun _ _ _ => 0) n v j = A i n v j.
Proof.
  intros N fun_ args ds A b Hf H. unfold numdiff in H. rewrite Nat.eqb_refl in H. cbn [orb] in H.
  injection H as <-. rewrite map_length, seq_length. split; [reflexivity|].
  intros i n v j Hi Hj. rewrite map_seq_nth by assumption.
  assert (Hne : numdiff_eps <> 0) by (unfold numdiff_eps; lra).
  unfold numdiff_entry. rewrite !Hf.
  set (xx := shift_col _ _ _).
  match goal with |- (b n v + ?S1 - (b n v + ?S2)) / _ = _ =>
    assert (E : S1 = S2 + A i n v j * numdiff_eps) end.
  { rewrite (rsum_ext (length args) _
      (fun k => mat_vec (fst (nth k args (0%nat, fun _ _ => 0))) (A k n) (nth k (map snd args) (fun _ _ => 0) n) v
                + (if Nat.eqb k i then A i n v j * numdiff_eps else 0))).
    - rewrite rsum_plus. f_equal. rewrite (rsum_single _ i); [rewrite Nat.eqb_refl; reflexivity|assumption|].
      intros k _ Hk. apply Nat.eqb_neq in Hk. rewrite Hk. reflexivity.
    - intros k Hk. rewrite nth_set_nth by (rewrite map_length; assumption).
      destruct (Nat.eqb_spec k i) as [->|Hne']; [|ring].
      unfold xx, shift_col. rewrite mat_vec_shift by assumption. reflexivity. }
  rewrite E. field. assumption.
Qed.

Lemma numdiff_rect_raises : forall N n_v fun_ args,
    n_v <> N -> n_v <> 1%nat -> (exists a, In a args /\ fst a <> 0%nat) ->
    numdiff N n_v fun_ args = Err ExcValue.
Proof.
  intros N n_v fun_ args H1 H2 (a & Ha & Hn). unfold numdiff.
  apply Nat.eqb_neq in H1. apply Nat.eqb_neq in H2. rewrite H1, H2. cbn [orb].
  assert (E : forallb (fun a => Nat.eqb (fst a) 0) args = false).
  { apply Bool.not_true_is_false. intro C. rewrite forallb_forall in C. specialize (C a Ha).
    apply Nat.eqb_eq in C. contradiction. }
  rewrite E. reflexivity.
Qed.

Lemma quadratic_example :
  forall j, quadratic_along (fun h => shift (fun _ => 2) j h 0%nat * shift (fun _ => 2) j h 1%nat
                                     + 3 * shift (fun _ => 2) j h 0%nat ^ 2).
Proof.
  intros [|[|j]]; unfold quadratic_along, shift; simpl.
  - exists 3, 14, 16. intros h. ring.
  - exists 0, 2, 16. intros h. ring.
  - exists 0, 0, 16. intros h. ring.
Qed.
