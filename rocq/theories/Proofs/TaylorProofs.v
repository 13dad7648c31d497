(** Proofs on Taylor expansions. *)
From Coq Require Import String Reals List Arith Bool Lia Lra.
From Verif.Base Require Import Prelude Sums Nda.
From Verif.Spec Require Import Tensor.
From Verif.Model Require Import DecisionRule Taylor.
From Verif.Proofs Require Import DecisionRuleProofs.
Import ListNotations.
Open Scope R_scope.

Lemma loop_sum : forall n (h : nat -> R) a, for_range n (fun j acc => acc + h j) a = a + rsum n h.
Proof. induction n as [|n IH]; intros h a; cbn; [lra|]. rewrite IH. lra. Qed.

Lemma loop_add : forall n (body : nat -> R -> R) h a, (forall i acc, body i acc = acc + h i) -> for_range n body a = a + rsum n h.
Proof. intros n body h a H. rewrite <- loop_sum. apply for_range_ext. intros i acc _. apply H. Qed.

Lemma shape_is_true : forall c sh, shape c = sh -> shape_is c sh = true.
Proof. intros c sh H. unfold shape_is. destruct (list_eq_dec Nat.eq_dec (shape c) sh); [reflexivity|contradiction]. Qed.

Lemma nth_map_seq0 : forall (f : nat -> R) N n d, (n < N)%nat -> nth n (map f (seq 0 N)) d = f n.
Proof.
  intros f N n d H. rewrite (nth_indep _ d (f 0%nat)) by (rewrite map_length, seq_length; exact H).
  rewrite map_nth, seq_nth by exact H. reflexivity.
Qed.

Lemma te_value : forall t p, well_formed_expansion (te_s t) (te_x t) (te_coefs t) -> length p = length (te_s t) ->
    exists out, te_eval1 t p = Ok out /\ length out = length (te_x t) /\
      forall n, (n < length (te_x t))%nat ->
        nth n out 0 = taylor (length (te_s t)) (fun n => nth n (te_x t) 0) (order1 (te_coefs t)) (order2 (te_coefs t)) (order3 (te_coefs t))
                        (fun i => nth i p 0 - nth i (te_s t) 0) n.
Proof.
  intros t p (HL & HF) Hp. unfold te_eval1. rewrite Hp, Nat.eqb_refl. cbn [negb].
  destruct (te_coefs t) as [|x1 [|x2 [|x3 [|x4 r]]]]; cbn in HL; try lia; cbn in HF.
  - destruct HF as (H1 & _). rewrite (shape_is_true _ _ H1). eexists. split; [reflexivity|].
    unfold eval_te_order_1. split; [rewrite map_length, seq_length; reflexivity|]. intros n Hn.
    rewrite nth_map_seq0 by exact Hn. rewrite loop_sum, Hp. unfold taylor, order1, order2, order3. cbn [Nat.add].
    rewrite !(rsum_0 (length (te_s t)) (fun i => rsum _ _)); [ring| |]; intros i _; apply rsum_0; intros j _.
    + apply rsum_0. intros k _. ring.
    + ring.
  - destruct HF as (H1 & H2 & _). rewrite (shape_is_true _ _ H1), (shape_is_true _ _ H2). eexists. split; [reflexivity|].
    unfold eval_te_order_2. split; [rewrite map_length, seq_length; reflexivity|]. intros n Hn.
    rewrite nth_map_seq0 by exact Hn.
    rewrite (loop_add _ _ (fun i => at_ x1 [n; i] * (nth i p 0 - nth i (te_s t) 0) +
              rsum (length p) (fun j => at_ x2 [n; i; j] * (nth i p 0 - nth i (te_s t) 0) * (nth j p 0 - nth j (te_s t) 0) / 2)))
      by (intros i acc; rewrite loop_sum; ring).
    rewrite rsum_plus, Hp. unfold taylor, order1, order2, order3. rewrite <- !rsum_scal.
    rewrite (rsum_0 (length (te_s t)) (fun i => 1 / 6 * _)).
    + rewrite Rplus_0_r, Rplus_assoc. do 2 f_equal. apply rsum_ext. intros i _. rewrite <- rsum_scal. apply rsum_ext. intros j _. field.
    + intros i _. rewrite rsum_0; [ring|]. intros j _. apply rsum_0. intros k _. ring.
  - destruct HF as (H1 & H2 & H3 & _). rewrite (shape_is_true _ _ H1), (shape_is_true _ _ H2), (shape_is_true _ _ H3).
    eexists. split; [reflexivity|].
    unfold eval_te_order_3. split; [rewrite map_length, seq_length; reflexivity|]. intros n Hn.
    rewrite nth_map_seq0 by exact Hn.
    set (d := fun i => nth i p 0 - nth i (te_s t) 0).
    rewrite (loop_add _ _ (fun i => at_ x1 [n; i] * d i +
              rsum (length p) (fun j => at_ x2 [n; i; j] * d i * d j / 2 + rsum (length p) (fun k => at_ x3 [n; i; j; k] * d i * d j * d k / 6)))).
    2:{ intros i acc. fold (d i).
        rewrite (loop_add _ _ (fun j => at_ x2 [n; i; j] * d i * d j / 2 + rsum (length p) (fun k => at_ x3 [n; i; j; k] * d i * d j * d k / 6))).
        - ring.
        - intros j acc'. fold (d j). rewrite (loop_add _ _ (fun k => at_ x3 [n; i; j; k] * d i * d j * d k / 6)) by (intros; reflexivity). ring. }
    rewrite rsum_plus, Hp. unfold taylor, order1, order2, order3. rewrite <- !rsum_scal.
    rewrite (rsum_ext _ (fun i => rsum _ (fun j => _ + _)) (fun i =>
        1 / 2 * rsum (length (te_s t)) (fun j => at_ x2 [n; i; j] * d i * d j) +
        1 / 6 * rsum (length (te_s t)) (fun j => rsum (length (te_s t)) (fun k => at_ x3 [n; i; j; k] * d i * d j * d k)))).
    2:{ intros i _. rewrite rsum_plus, <- !rsum_scal. f_equal.
        - apply rsum_ext. intros j _. field.
        - apply rsum_ext. intros j _. rewrite <- rsum_scal. apply rsum_ext. intros k _. field. }
    rewrite rsum_plus. ring.
Qed.

Lemma te_rows : forall t rows, well_formed_expansion (te_s t) (te_x t) (te_coefs t) ->
    (forall r, In r rows -> length r = length (te_s t)) ->
    exists out, te_eval_s t (P2 rows) = Ok (P2 out) /\ length out = length rows /\
      forall r n, (r < length rows)%nat -> (n < length (te_x t))%nat ->
        nth n (nth r out []) 0 = taylor (length (te_s t)) (fun n => nth n (te_x t) 0) (order1 (te_coefs t)) (order2 (te_coefs t)) (order3 (te_coefs t))
                        (fun i => nth i (nth r rows []) 0 - nth i (te_s t) 0) n.
Proof.
  intros t rows HW HR. unfold te_eval_s.
  destruct (map_res_ok (te_eval1 t) rows) as (out & E & L & HV).
  { intros r Hr. destruct (te_value t r HW (HR r Hr)) as (o & Eo & _). exists o. exact Eo. }
  rewrite E. exists out. split; [reflexivity|]. split; [exact L|]. intros r n Hr Hn.
  destruct (te_value t (nth r rows []) HW (HR _ (nth_In _ _ Hr))) as (o & Eo & _ & Vo).
  rewrite <- (Vo n Hn). f_equal. apply nth_error_nth.
  apply (HV r (nth r rows []) o); [apply nth_error_nth'; exact Hr|exact Eo].
Qed.

Lemma taylor_point : forall S x0 x1 x2 x3 n, taylor S x0 x1 x2 x3 (fun _ => 0) n = x0 n.
Proof.
  intros. unfold taylor. rewrite !rsum_0; [ring| | |]; intros i _; try ring; rewrite rsum_0; try ring; intros j _; try ring.
  apply rsum_0. intros k _. ring.
Qed.

Lemma taylor_ext : forall S x0 x1 x2 x3 d d' n, (forall i, (i < S)%nat -> d i = d' i) ->
    taylor S x0 x1 x2 x3 d n = taylor S x0 x1 x2 x3 d' n.
Proof.
  intros S x0 x1 x2 x3 d d' n H. unfold taylor. f_equal; [f_equal; [f_equal|]|].
  - apply rsum_ext. intros i Hi. rewrite H by exact Hi. reflexivity.
  - f_equal. apply rsum_ext. intros i Hi. apply rsum_ext. intros j Hj. rewrite !H by assumption. reflexivity.
  - f_equal. apply rsum_ext. intros i Hi. apply rsum_ext. intros j Hj. apply rsum_ext. intros k Hk. rewrite !H by assumption. reflexivity.
Qed.

Lemma te_at_point : forall t, well_formed_expansion (te_s t) (te_x t) (te_coefs t) -> te_eval_s t (P1 (te_s t)) = Ok (P1 (te_x t)).
Proof.
  intros t HW. unfold te_eval_s. destruct (te_value t (te_s t) HW eq_refl) as (out & E & L & V). rewrite E. cbn [bind].
  do 2 f_equal. apply nth_ext with (d := 0) (d' := 0); [exact L|]. intros n Hn. rewrite L in Hn. rewrite (V n Hn).
  rewrite (taylor_ext _ _ _ _ _ _ (fun _ => 0)) by (intros; ring). apply taylor_point.
Qed.

(** Indexing. *)
Lemma pick_ok : forall ind c X sh, shape c = X :: sh -> (forall i, In i ind -> (i < X)%nat) ->
    exists c', pick ind c = Ok c' /\ shape c' = length ind :: sh /\ forall k r, at_ c' (k :: r) = at_ c (nth k ind 0%nat :: r).
Proof.
  intros ind c X sh Hs Hi. unfold pick. rewrite Hs.
  replace (forallb (fun i => Nat.ltb i X) ind) with true.
  - eexists. split; [reflexivity|]. split; [reflexivity|]. intros k r. reflexivity.
  - symmetry. apply forallb_forall. intros x Hx. apply Nat.ltb_lt, Hi, Hx.
Qed.

Lemma te_select : forall t ind, well_formed_expansion (te_s t) (te_x t) (te_coefs t) ->
    (forall i, In i ind -> (i < length (te_x t))%nat) ->
    exists t', te_getitem t ind = Ok t' /\ well_formed_expansion (te_s t') (te_x t') (te_coefs t') /\ te_s t' = te_s t /\ length (te_x t') = length ind /\
      forall p out out', length p = length (te_s t) -> te_eval1 t p = Ok out -> te_eval1 t' p = Ok out' ->
        forall k, (k < length ind)%nat -> nth k out' 0 = nth (nth k ind 0%nat) out 0.
Proof.
  intros t ind (HL & HF) Hi. unfold te_getitem.
  replace (forallb (fun i => Nat.ltb i (length (te_x t))) ind) with true
    by (symmetry; apply forallb_forall; intros x Hx; apply Nat.ltb_lt, Hi, Hx).
  set (X := length (te_x t)) in *. set (SN := length (te_s t)) in *.
  assert (G : exists cs, map_res (pick ind) (te_coefs t) = Ok cs /\ length cs = length (te_coefs t) /\
      coefficients_fit [length ind] SN cs /\
      (forall k i, (k < length ind)%nat -> order1 cs k i = order1 (te_coefs t) (nth k ind 0%nat) i) /\
      (forall k i j, (k < length ind)%nat -> order2 cs k i j = order2 (te_coefs t) (nth k ind 0%nat) i j) /\
      (forall k i j l, (k < length ind)%nat -> order3 cs k i j l = order3 (te_coefs t) (nth k ind 0%nat) i j l)).
  { destruct (te_coefs t) as [|x1 [|x2 [|x3 [|x4 r]]]]; cbn in HL; try lia; cbn in HF.
    - destruct HF as (H1 & _). destruct (pick_ok ind x1 X _ H1 Hi) as (c1 & E1 & S1 & V1).
      exists [c1]. cbn [map_res]. rewrite E1. cbn. repeat split; try assumption; intros; cbn; try apply V1; reflexivity.
    - destruct HF as (H1 & H2 & _). destruct (pick_ok ind x1 X _ H1 Hi) as (c1 & E1 & S1 & V1).
      destruct (pick_ok ind x2 X _ H2 Hi) as (c2 & E2 & S2 & V2).
      exists [c1; c2]. cbn [map_res]. rewrite E1, E2. cbn. repeat split; try assumption; intros; cbn; try apply V1; try apply V2; reflexivity.
    - destruct HF as (H1 & H2 & H3 & _). destruct (pick_ok ind x1 X _ H1 Hi) as (c1 & E1 & S1 & V1).
      destruct (pick_ok ind x2 X _ H2 Hi) as (c2 & E2 & S2 & V2). destruct (pick_ok ind x3 X _ H3 Hi) as (c3 & E3 & S3 & V3).
      exists [c1; c2; c3]. cbn [map_res]. rewrite E1, E2, E3. cbn. repeat split; try assumption; intros; cbn; try apply V1; try apply V2; try apply V3; reflexivity. }
  destruct G as (cs & E & L & HF' & O1 & O2 & O3). rewrite E. cbn [bind].
  set (x' := map (fun i => nth i (te_x t) 0) ind).
  assert (EM : te_make (te_s t) x' cs = Ok (TE (te_s t) x' cs)).
  { unfold te_make. destruct (length cs) as [|[|[|[|q]]]] eqn:Q; try reflexivity; lia. }
  exists (TE (te_s t) x' cs). split; [exact EM|]. cbn [te_s te_x te_coefs].
  assert (W : well_formed_expansion (te_s t) x' cs).
  { split; [lia|]. unfold x'. rewrite map_length. exact HF'. }
  split; [exact W|]. split; [reflexivity|]. split; [unfold x'; apply map_length|].
  intros p out out' Hp Eo Eo' k Hk.
  destruct (te_value t p (conj HL HF) Hp) as (o & Q & _ & V). rewrite Eo in Q. injection Q as <-.
  destruct (te_value (TE (te_s t) x' cs) p W Hp) as (o & Q & _ & V'). rewrite Eo' in Q. injection Q as <-.
  cbn [te_s te_x te_coefs] in V'.
  assert (Hik : (nth k ind 0 < X)%nat) by (apply Hi, nth_In; exact Hk).
  rewrite (V' k) by (unfold x'; rewrite map_length; exact Hk). rewrite (V _ Hik).
  unfold taylor.
  f_equal; [f_equal; [f_equal|]|].
  - unfold x'. rewrite (nth_indep _ 0 (nth 0%nat (te_x t) 0)) by (rewrite map_length; exact Hk).
    rewrite (map_nth (fun i => nth i (te_x t) 0) ind 0%nat k). reflexivity.
  - apply rsum_ext. intros i _. rewrite O1 by exact Hk. reflexivity.
  - f_equal. apply rsum_ext. intros i _. apply rsum_ext. intros j _. rewrite O2 by exact Hk. reflexivity.
  - f_equal. apply rsum_ext. intros i _. apply rsum_ext. intros j _. apply rsum_ext. intros l _. rewrite O3 by exact Hk. reflexivity.
Qed.

Lemma te_make_cases : forall s x cs,
    (length cs = 0%nat -> te_make s x cs = Err ExcIndex) /\
    (4 <= length cs -> te_make s x cs = Err (ExcGeneric "Not implemented"))%nat /\
    (1 <= length cs <= 3 -> te_make s x cs = Ok (TE s x cs))%nat.
Proof.
  intros s x cs. unfold te_make. split; [|split]; intros H.
  - rewrite H. reflexivity.
  - destruct (length cs) as [|[|[|[|q]]]]; try lia. reflexivity.
  - destruct (length cs) as [|[|[|[|q]]]]; try lia; reflexivity.
Qed.
