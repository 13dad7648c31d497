(** The second decomposition asked by first_order when the roots do not split at one. *)
From Coq Require Import Reals List Arith Lia Lra Bool Permutation Sorted.
From Verif.Base Require Import Prelude Ext Sums Arrays Nda.
From Verif.Spec Require Import LinearAlgebra Perturbation.
From Verif.Model Require Import DecisionRule Perturbation LinearSolve Tensor MatrixEquations Taylor HigherOrder Grids Simulation.
From Verif.Proofs Require Import PerturbationFinal HigherOrderFinal Refusals.
Import ListNotations.
Open Scope R_scope.

Lemma pairs_false_or : forall n SS TT, (forall i, (i < n)%nat -> 1 / 10 ^ 10 <= Rabs (SS i i) \/ 1 / 10 ^ 10 <= Rabs (TT i i)) ->
    pairs_ok n SS TT = true.
Proof. intros. apply pairs_iff. assumption. Qed.

Lemma eigval_num : forall SS TT i, TT i i <> 0 -> eigval SS TT i = Fin (Rabs (SS i i / TT i i)).
Proof. intros SS TT i H. unfold eigval. destruct (Req_EM_T (TT i i) 0); [contradiction|reflexivity]. Qed.

Lemma sorted_two : forall a b, a < b \/ b < a ->
    rev (sorted [Fin a; Fin b]) = [Fin (Rmax a b); Fin (Rmin a b)].
Proof.
  intros a b H. cbn. unfold ext_leb. destruct (Rle_dec a b) as [L|L]; cbn.
  - rewrite Rmax_right, Rmin_left by lra. reflexivity.
  - rewrite Rmax_left, Rmin_right by lra. reflexivity.
Qed.

Lemma second_call : forall qz solve f1 g1 SS TT QQ ZZ r0 r1,
    qz 2%nat (lead 1 (fun i j => at_ f1 [i; (1 + 1 + j)%nat]) (fun i j => at_ f1 [i; (1 + 1 + 1 + j)%nat]))
       (lag 1 (fun i j => at_ g1 [i; j]) (fun i j => at_ g1 [i; (1 + j)%nat])
              (fun i j => at_ f1 [i; j]) (fun i j => at_ f1 [i; (1 + j)%nat])) (Fin (1 - 1 / 10 ^ 8)) = Ok (SS, TT, QQ, ZZ) ->
    1 / 10 ^ 10 <= Rabs (TT 0%nat 0%nat) -> 1 / 10 ^ 10 <= Rabs (TT 1%nat 1%nat) ->
    r0 = Rabs (SS 0%nat 0%nat / TT 0%nat 0%nat) -> r1 = Rabs (SS 1%nat 1%nat / TT 1%nat 1%nat) ->
    r0 < 1 \/ 1 <= r1 ->
    first_order qz solve 1 1 f1 g1 =
      (if Req_EM_T r0 r1 then Err ExcName else
       bind (qz 2%nat (lead 1 (fun i j => at_ f1 [i; (1 + 1 + j)%nat]) (fun i j => at_ f1 [i; (1 + 1 + 1 + j)%nat]))
       (lag 1 (fun i j => at_ g1 [i; j]) (fun i j => at_ g1 [i; (1 + j)%nat])
              (fun i j => at_ f1 [i; j]) (fun i j => at_ f1 [i; (1 + j)%nat])) (Fin (Rabs (r0 - r1) / 2)))
        (fun r => let '(S', T', _, Z') := r in first_rule solve 1 1 S' T' Z')).
Proof.
  intros qz solve f1 g1 SS TT QQ ZZ r0 r1 Eq H0 H1 E0 E1 HB.
  assert (P10 : 0 < 1 / 10 ^ 10) by (cbn; lra).
  assert (N0 : TT 0%nat 0%nat <> 0) by (intro H; rewrite H, Rabs_R0 in H0; lra).
  assert (N1 : TT 1%nat 1%nat <> 0) by (intro H; rewrite H, Rabs_R0 in H1; lra).
  unfold first_order. cbv zeta.
  match goal with |- bind (qz _ ?a ?b _) _ = _ =>
    change a with (lead 1 (fun i j => at_ f1 [i; (1 + 1 + j)%nat]) (fun i j => at_ f1 [i; (1 + 1 + 1 + j)%nat]));
    change b with (lag 1 (fun i j => at_ g1 [i; j]) (fun i j => at_ g1 [i; (1 + j)%nat])
              (fun i j => at_ f1 [i; j]) (fun i j => at_ f1 [i; (1 + j)%nat])) end.
  change (1 + 1)%nat with 2%nat at 1. rewrite Eq. cbn [bind].
  rewrite pairs_false_or by (intros i Hi; right; destruct i as [|[|i]]; [exact H0|exact H1|lia]). cbn [negb].
  assert (Ev0 := eigval_num SS TT 0 N0). assert (Ev1 := eigval_num SS TT 1 N1). rewrite <- E0 in Ev0. rewrite <- E1 in Ev1.
  assert (Eb : bk_check 1 1 (eigval SS TT) = Ok false).
  { unfold bk_check, some_above, some_below. cbn [Nat.eqb seq existsb]. rewrite Ev0, Ev1. unfold ext_ltb. cbn [ext_leb].
    destruct (Rle_dec 1 r0) as [L|L]; cbn [orb]; [|reflexivity].
    destruct (Rle_dec 1 r1) as [L1|L1]; cbn; [reflexivity|lra]. }
  rewrite Eb. cbn [bind]. cbn [seq map Nat.add]. rewrite Ev0, Ev1.
  destruct (Req_EM_T r0 r1) as [E|E].
  - subst r1. rewrite <- E. cbn [sorted insert ext_leb]. destruct (Rle_dec r0 r0) as [L|L]; [|lra].
    cbn. unfold ext_ltb. cbn [ext_leb]. destruct (Rle_dec r0 r0); [reflexivity|lra].
  - rewrite sorted_two by lra. cbn [Nat.sub nth_error].
    unfold ext_ltb. cbn [ext_leb].
    destruct (Rle_dec (Rmax r0 r1) (Rmin r0 r1)) as [L|L].
    { exfalso. revert L. unfold Rmax, Rmin. destruct (Rle_dec r0 r1); lra. }
    cbn [negb]. unfold half_gap.
    replace (Rmax r0 r1 - Rmin r0 r1) with (Rabs (r0 - r1)); [reflexivity|].
    unfold Rmax, Rmin. destruct (Rle_dec r0 r1); [rewrite Rabs_left by lra; lra|rewrite Rabs_right by lra; lra].
Qed.

(** ** Any number of states and controls. *)

Fixpoint insertR (a : R) (l : list R) : list R :=
  match l with [] => [a] | b :: l' => if Rle_dec a b then a :: l else b :: insertR a l' end.
Fixpoint sortedR (l : list R) : list R := match l with [] => [] | a :: l' => insertR a (sortedR l') end.

Lemma sorted_fin : forall l, sorted (map Fin l) = map Fin (sortedR l).
Proof.
  assert (K : forall a l, insert (Fin a) (map Fin l) = map Fin (insertR a l)).
  { intros a. induction l as [|b l IH]; cbn [map insert insertR]; [reflexivity|]. cbn [ext_leb].
    destruct (Rle_dec a b); [reflexivity|]. cbn [map]. rewrite IH. reflexivity. }
  induction l as [|a l IH]; cbn [map sorted sortedR]; [reflexivity|]. rewrite IH, K. reflexivity.
Qed.
Lemma insertR_perm : forall a l, Permutation (a :: l) (insertR a l).
Proof.
  intros a. induction l as [|b l IH]; cbn [insertR]; [reflexivity|]. destruct (Rle_dec a b); [reflexivity|].
  etransitivity; [apply perm_swap|]. constructor. exact IH.
Qed.
Lemma sortedR_perm : forall l, Permutation l (sortedR l).
Proof.
  induction l as [|a l IH]; cbn [sortedR]; [reflexivity|]. etransitivity; [constructor; exact IH|]. apply insertR_perm.
Qed.
Lemma insertR_sorted : forall a l, StronglySorted Rle l -> StronglySorted Rle (insertR a l).
Proof.
  intros a. induction l as [|b l IH]; cbn [insertR]; intros H; [repeat constructor|].
  pose proof (StronglySorted_inv H) as (Hs & Hb). destruct (Rle_dec a b) as [L|L].
  - constructor; [exact H|]. constructor; [exact L|]. rewrite Forall_forall in *. intros x Hx. specialize (Hb x Hx). lra.
  - constructor; [exact (IH Hs)|]. rewrite Forall_forall in *. intros x Hx.
    apply (Permutation_in x (Permutation_sym (insertR_perm a l))) in Hx. destruct Hx as [->|Hx]; [lra|exact (Hb x Hx)].
Qed.
Lemma sortedR_sorted : forall l, StronglySorted Rle (sortedR l).
Proof. induction l as [|a l IH]; cbn [sortedR]; [constructor|]. apply insertR_sorted. exact IH. Qed.

Lemma sorted_app : forall l x, StronglySorted Rge l -> (forall y, In y l -> y >= x) -> StronglySorted Rge (l ++ [x]).
Proof.
  induction l as [|a l IH]; intros x H K; cbn [app]; [repeat constructor|].
  apply StronglySorted_inv in H as (Hs & Ha). constructor.
  - apply IH; [exact Hs|]. intros y Hy. apply K. right. exact Hy.
  - rewrite Forall_forall in *. intros y Hy. apply in_app_or in Hy as [Hy|[<-|[]]]; [exact (Ha y Hy)|]. apply K. left. reflexivity.
Qed.
Lemma sorted_rev : forall l, StronglySorted Rle l -> StronglySorted Rge (rev l).
Proof.
  induction l as [|a l IH]; intros H; cbn [rev]; [constructor|]. apply StronglySorted_inv in H as (Hs & Ha).
  apply sorted_app; [exact (IH Hs)|]. intros y Hy. apply in_rev in Hy. rewrite Forall_forall in Ha. apply Rle_ge. exact (Ha y Hy).
Qed.

Lemma sorted_unique : forall l1 l2, StronglySorted Rge l1 -> StronglySorted Rge l2 -> Permutation l1 l2 -> l1 = l2.
Proof.
  induction l1 as [|a l1 IH]; intros l2 H1 H2 HP.
  - apply Permutation_nil in HP. subst l2. reflexivity.
  - destruct l2 as [|b l2]; [apply Permutation_sym in HP; apply Permutation_nil in HP; discriminate|].
    pose proof (StronglySorted_inv H1) as (S1 & F1). pose proof (StronglySorted_inv H2) as (S2 & F2). rewrite Forall_forall in F1, F2.
    assert (E : a = b).
    { assert (I1 : In a (b :: l2)) by (apply (Permutation_in a HP); left; reflexivity).
      assert (I2 : In b (a :: l1)) by (apply (Permutation_in b (Permutation_sym HP)); left; reflexivity).
      destruct I1 as [E|I1]; [symmetry; exact E|]. destruct I2 as [E|I2]; [exact E|].
      specialize (F1 b I2). specialize (F2 a I1). lra. }
    subst b. f_equal. apply IH; [exact S1|exact S2|]. exact (Permutation_cons_inv HP).
Qed.

Lemma sorted_moduli : forall l r, StronglySorted Rge l -> Permutation l r -> rev (sorted (map Fin r)) = map Fin l.
Proof.
  intros l r Hs HP. rewrite sorted_fin, <- map_rev. f_equal. symmetry. apply sorted_unique.
  - exact Hs.
  - apply sorted_rev, sortedR_sorted.
  - etransitivity; [exact HP|]. etransitivity; [apply sortedR_perm|]. apply Permutation_rev.
Qed.

Lemma second_call_all : forall qz solve n_s n_x f1 g1 SS TT QQ ZZ (r : nat -> R) l,
    (1 <= n_s)%nat -> (1 <= n_x)%nat ->
    let A := lead n_s (fun i j => at_ f1 [i; (n_s + n_x + j)%nat]) (fun i j => at_ f1 [i; (n_s + n_x + n_s + j)%nat]) in
    let B := lag n_s (fun i j => at_ g1 [i; j]) (fun i j => at_ g1 [i; (n_s + j)%nat])
                 (fun i j => at_ f1 [i; j]) (fun i j => at_ f1 [i; (n_s + j)%nat]) in
    qz (n_s + n_x)%nat A B (Fin (1 - 1 / 10 ^ 8)) = Ok (SS, TT, QQ, ZZ) ->
    (forall i, (i < n_s + n_x)%nat -> 1 / 10 ^ 10 <= Rabs (TT i i) /\ r i = Rabs (SS i i / TT i i)) ->
    (forall i, (i < n_s)%nat -> r i < 1) \/ (forall i, (n_s <= i)%nat -> (i < n_s + n_x)%nat -> 1 <= r i) ->
    StronglySorted Rge l -> Permutation l (map r (seq 0 (n_s + n_x))) ->
    let a := nth (n_s - 1) l 0 in let b := nth n_s l 0 in
    first_order qz solve n_s n_x f1 g1 =
      (if Rlt_dec b a
       then bind (qz (n_s + n_x)%nat A B (Fin ((a - b) / 2))) (fun r => let '(S', T', _, Z') := r in first_rule solve n_s n_x S' T' Z')
       else Err ExcName).
Proof.
  intros qz solve n_s n_x f1 g1 SS TT QQ ZZ r l Hn Hx A B Eq Hr HB Hs HP a b.
  assert (P10 : 0 < 1 / 10 ^ 10) by (cbn; lra).
  unfold first_order. cbv zeta. fold A B.
  match goal with |- bind (qz _ ?u ?v _) _ = _ => change u with A; change v with B end.
  rewrite Eq. cbn [bind].
  rewrite pairs_false_or by (intros i Hi; right; apply Hr; exact Hi). cbn [negb].
  assert (Ev : forall i, (i < n_s + n_x)%nat -> eigval SS TT i = Fin (r i)).
  { intros i Hi. destruct (Hr i Hi) as (Ht & ->). apply eigval_num. intro H. rewrite H, Rabs_R0 in Ht. lra. }
  assert (Eb : bk_check n_s n_x (eigval SS TT) = Ok false).
  { unfold bk_check. rewrite (proj2 (Nat.eqb_neq n_s 0)), (proj2 (Nat.eqb_neq n_x 0)) by lia.
    destruct (some_above (eigval SS TT) (seq 0 n_s)) eqn:Ea; [|reflexivity].
    apply existsb_exists in Ea as (i & Hi & Ei). apply in_seq in Hi. rewrite Ev in Ei by lia. cbn [ext_leb] in Ei.
    destruct (Rle_dec 1 (r i)) as [L|]; [|discriminate]. f_equal. apply Bool.not_true_is_false. intro K.
    apply existsb_exists in K as (j & Hj & Ej). apply in_seq in Hj. rewrite Ev in Ej by lia. unfold ext_ltb in Ej. cbn [ext_leb] in Ej.
    destruct (Rle_dec 1 (r j)) as [|L2]; [discriminate|].
    destruct HB as [HB|HB]; [specialize (HB i ltac:(lia)); lra|specialize (HB j ltac:(lia) ltac:(lia)); lra]. }
  rewrite Eb. cbn [bind].
  rewrite (map_ext_in (eigval SS TT) (fun i => Fin (r i))) by (intros i Hi; apply in_seq in Hi; apply Ev; lia).
  rewrite <- (map_map r Fin), (sorted_moduli l _ Hs HP).
  assert (Len : length l = (n_s + n_x)%nat) by (rewrite (Permutation_length HP), map_length, seq_length; reflexivity).
  rewrite (map_nth_error Fin (n_s - 1) l (d := a)) by (apply nth_error_nth'; lia).
  rewrite (map_nth_error Fin n_s l (d := b)) by (apply nth_error_nth'; lia).
  unfold ext_ltb. cbn [ext_leb]. destruct (Rle_dec a b) as [L|L]; destruct (Rlt_dec b a); try lra; cbn [negb]; reflexivity.
Qed.

(** Selecting the root of modulus [a] and not that of modulus [b], with the test of qz.py:14. *)
Lemma cutoff_wrong : exists r0 r1, (r0 < 1 \/ 1 <= r1) /\ r1 < r0 /\
    ~ (Rabs (r0 - r1) / 2 < r0 ^ 2 /\ r1 ^ 2 <= Rabs (r0 - r1) / 2).
Proof.
  exists 2, (3 / 2). split; [lra|]. split; [lra|]. rewrite Rabs_right by lra. lra.
Qed.

(** What simulate reads of a rule on grids. *)
Lemma grid_rule_calls : forall el ec exo endo k c i m s,
    let ru := grid_rule el ec exo endo k c in
    let call := call2 (eval_is el ec exo endo k c) (eval_ms el ec exo endo k c) in
    call (Idx (IInt i)) (P1 s) = bind (ru_is ru (Some i) s) (fun r => Ok (P1 r)) /\
    call (Pts (P1 m)) (P1 s) = bind (ru_ms ru m s) (fun r => Ok (P1 r)) /\
    (exo = GEmpty -> forall j, ru_is ru None s = ru_is ru (Some j) s) /\
    (exo <> GEmpty -> is_err (ru_is ru None s)).
Proof.
  intros el ec exo endo k c i m s ru call. split; [|split; [|split]].
  - subst call ru. cbn [call2 grid_rule ru_is]. destruct (eval_is el ec exo endo k c (IInt i) [s]) as [o|e]; [|reflexivity].
    cbn [bind]. unfold first_row, row0. destruct o; reflexivity.
  - subst call ru. cbn [call2 grid_rule ru_ms]. destruct (eval_ms el ec exo endo k c [m] [s]) as [o|e]; [|reflexivity].
    cbn [bind]. unfold first_row, row0. destruct o; reflexivity.
  - intros -> j. reflexivity.
  - intros H. subst ru. cbn [grid_rule ru_is]. destruct exo; try (eexists; reflexivity); try exact I; contradiction.
Qed.

Lemma grid_rule_nodes : forall el ec exo endo k c nodes i,
    ru_nodes (grid_rule el ec exo endo k c) = Ok nodes -> (i < nrow nodes)%nat -> grid_node exo i = Ok (row nodes i).
Proof.
  intros el ec exo endo k c nodes i H Hi. cbn [grid_rule ru_nodes] in H. unfold grid_node.
  destruct exo; inversion H; subst nodes; apply Nat.ltb_lt in Hi; rewrite Hi; reflexivity.
Qed.
