(** The table of [deterministic_solve]. *)
From Coq Require Import String Reals List Arith ZArith Bool Lia Lra FinFun.
From Verif.Base Require Import Prelude Ext Arrays.
From Verif.Model Require Import Complementarity SteadyState PerfectForesight PfTable.
From Verif.Spec Require Import PfTable.
Import ListNotations.
Open Scope R_scope.

Definition variables_distinct (v : pf_variables) : Prop :=
  NoDup (pv_states v ++ pv_controls v ++ pv_auxiliaries v ++ pv_exogenous v).

Lemma index_row : forall o t, (t < o_rows o)%nat ->
  nth_error (map (fun t => (o_first o + Z.of_nat t)%Z) (seq 0 (o_rows o))) t = Some (o_first o + Z.of_nat t)%Z.
Proof.
  intros o t Ht. rewrite nth_error_map. rewrite nth_error_nth' with (d := 0%nat) by (rewrite seq_length; exact Ht).
  rewrite seq_nth by exact Ht. reflexivity.
Qed.

Lemma index_once : forall o t t', 
  nth_error (map (fun t => (o_first o + Z.of_nat t)%Z) (seq 0 (o_rows o))) t' = Some (o_first o + Z.of_nat t)%Z -> t' = t.
Proof.
  intros o t t' H. rewrite nth_error_map in H. destruct (nth_error (seq 0 (o_rows o)) t') as [u|] eqn:E; [|discriminate].
  injection H as H. assert (u = t) by lia. subst u.
  assert (L : (t' < length (seq 0 (o_rows o)))%nat) by (apply nth_error_Some; congruence).
  rewrite nth_error_nth' with (d := 0%nat) in E by exact L. injection E as E. rewrite seq_length in L. rewrite seq_nth in E by exact L. lia.
Qed.

Lemma shows_at : forall o cols cell t k name, (t < o_rows o)%nat -> NoDup cols -> nth_error cols k = Some name ->
  shows (Table (map (fun t => (o_first o + Z.of_nat t)%Z) (seq 0 (o_rows o))) cols cell) (o_first o + Z.of_nat t) name (cell t k).
Proof.
  intros o cols cell t k name Ht HN Hk. exists t, k. cbn [tb_index tb_columns tb_cell]. split; [apply index_row, Ht|].
  split; [exact Hk|]. split; [reflexivity|]. split; [intros t' H; exact (index_once o t t' H)|].
  intros k' H. apply (proj1 (NoDup_nth_error cols) HN).
  - apply nth_error_Some. congruence.
  - congruence.
Qed.

Lemma nth_error_app_r : forall {A} (l r : list A) k x, nth_error r k = Some x -> nth_error (l ++ r) (length l + k) = Some x.
Proof. intros A l r k x H. rewrite nth_error_app2 by lia. replace (length l + k - length l)%nat with k by lia. exact H. Qed.
Lemma nth_error_app_l : forall {A} (l r : list A) k x, nth_error l k = Some x -> nth_error (l ++ r) k = Some x.
Proof. intros A l r k x H. rewrite nth_error_app1; [exact H|]. apply nth_error_Some. congruence. Qed.
Lemma nth_error_lt : forall {A} (l : list A) k x, nth_error l k = Some x -> (k < length l)%nat.
Proof. intros A l k x H. apply nth_error_Some. congruence. Qed.

Lemma columns_distinct : forall v o, variables_distinct v -> NoDup (tb_columns (pf_table v o)).
Proof.
  intros v o H. unfold pf_table, variables_distinct in *. destruct (pv_aux v); cbn.
  - rewrite <- !app_assoc. exact H.
  - rewrite <- app_assoc. rewrite !app_assoc in H. 
    assert (G : forall (a b c : list string), NoDup ((a ++ b) ++ c) -> NoDup (a ++ c)).
    { induction a as [|x a IH]; intros b c HN; cbn in *.
      - induction b as [|y b IHb]; cbn in HN; [exact HN|]. inversion HN; subst. apply IHb. assumption.
      - inversion HN as [|y l Hx HN']; subst. constructor; [|apply (IH b c HN')].
        intros Hin. apply Hx. rewrite in_app_iff in Hin |- *. rewrite in_app_iff. tauto. }
    rewrite app_assoc. exact (G _ _ _ H).
Qed.

Theorem table_shows : forall v o, variables_distinct v ->
  let tb := pf_table v o in
  forall t, (t < o_rows o)%nat -> let date := (o_first o + Z.of_nat t)%Z in
    let s := fun k => o_sol o t k in
    let x := fun k => o_sol o t (length (pv_states v) + k)%nat in
    (forall k n, nth_error (pv_states v) k = Some n -> shows tb date n (s k)) /\
    (forall k n, nth_error (pv_controls v) k = Some n -> shows tb date n (x k)) /\
    (forall k n, nth_error (pv_exogenous v) k = Some n -> shows tb date n (o_eps o t k)) /\
    (forall aux k n, pv_aux v = Some aux -> nth_error (pv_auxiliaries v) k = Some n ->
       exists m' s' x', shows tb date n (aux m' s' x' k) /\ m' = o_eps o t /\
         (forall j, (j < length (pv_states v))%nat -> s' j = s j) /\
         (forall j, (j < length (pv_controls v))%nat -> x' j = x j)).
Proof.
  intros v o HV tb t Ht date s x.
  pose proof (columns_distinct v o HV) as HN. fold tb in HN.
  assert (SH : forall k n c, nth_error (tb_columns tb) k = Some n -> tb_cell tb t k = c -> shows tb date n c).
  { intros k n c Hk <-. unfold tb, pf_table in Hk, HN |- *. destruct (pv_aux v); cbn in Hk, HN |- *; apply shows_at; assumption. }
  unfold tb, pf_table in SH.
  destruct (pv_aux v) as [aux|] eqn:EA.
  - cbn [tb_columns tb_cell] in SH.
    repeat split.
    + intros k n Hk. pose proof (nth_error_lt _ _ _ Hk). unfold tb, pf_table. rewrite EA. apply (SH k).
      * rewrite <- !app_assoc. apply nth_error_app_l, Hk.
      * unfold column_stack. destruct (Nat.ltb_spec k (length (pv_states v) + length (pv_controls v) + length (pv_auxiliaries v))); [|lia].
        destruct (Nat.ltb_spec k (length (pv_states v) + length (pv_controls v))); [reflexivity|lia].
    + intros k n Hk. pose proof (nth_error_lt _ _ _ Hk). unfold tb, pf_table. rewrite EA. apply (SH (length (pv_states v) + k)%nat).
      * rewrite <- !app_assoc. apply nth_error_app_r, nth_error_app_l, Hk.
      * unfold column_stack. destruct (Nat.ltb_spec (length (pv_states v) + k) (length (pv_states v) + length (pv_controls v) + length (pv_auxiliaries v))); [|lia].
        destruct (Nat.ltb_spec (length (pv_states v) + k) (length (pv_states v) + length (pv_controls v))); [reflexivity|lia].
    + intros k n Hk. pose proof (nth_error_lt _ _ _ Hk). unfold tb, pf_table. rewrite EA.
      apply (SH (length (pv_states v) + length (pv_controls v) + length (pv_auxiliaries v) + k)%nat).
      * rewrite <- !app_assoc. replace (length (pv_states v) + length (pv_controls v) + length (pv_auxiliaries v) + k)%nat
          with (length (pv_states v) + (length (pv_controls v) + (length (pv_auxiliaries v) + k)))%nat by lia.
        do 3 apply nth_error_app_r. exact Hk.
      * unfold column_stack at 1.
        destruct (Nat.ltb_spec (length (pv_states v) + length (pv_controls v) + length (pv_auxiliaries v) + k) (length (pv_states v) + length (pv_controls v) + length (pv_auxiliaries v))); [lia|].
        f_equal. lia.
    + intros aux' k n Ea Hk. injection Ea as <-. pose proof (nth_error_lt _ _ _ Hk).
      exists (o_eps o t), (slice 0 (length (pv_states v)) (o_sol o t)), (slice (length (pv_states v)) (length (pv_controls v)) (o_sol o t)).
      split; [|split; [reflexivity|split]].
      * unfold tb, pf_table. rewrite EA. apply (SH (length (pv_states v) + length (pv_controls v) + k)%nat).
        -- rewrite <- !app_assoc. rewrite <- Nat.add_assoc. do 2 apply nth_error_app_r. apply nth_error_app_l, Hk.
        -- unfold column_stack.
           destruct (Nat.ltb_spec (length (pv_states v) + length (pv_controls v) + k) (length (pv_states v) + length (pv_controls v) + length (pv_auxiliaries v))); [|lia].
           destruct (Nat.ltb_spec (length (pv_states v) + length (pv_controls v) + k) (length (pv_states v) + length (pv_controls v))); [lia|].
           f_equal. lia.
      * intros j Hj. unfold slice, s. destruct (Nat.ltb_spec j (length (pv_states v))); [|lia]. reflexivity.
      * intros j Hj. unfold slice, x. destruct (Nat.ltb_spec j (length (pv_controls v))); [|lia]. reflexivity.
  - cbn [tb_columns tb_cell] in SH.
    repeat split; [| | |intros aux k n Ea; discriminate Ea].
    + intros k n Hk. pose proof (nth_error_lt _ _ _ Hk). unfold tb, pf_table. rewrite EA. apply (SH k).
      * rewrite <- !app_assoc. apply nth_error_app_l, Hk.
      * unfold column_stack. destruct (Nat.ltb_spec k (length (pv_states v) + length (pv_controls v))); [reflexivity|lia].
    + intros k n Hk. pose proof (nth_error_lt _ _ _ Hk). unfold tb, pf_table. rewrite EA. apply (SH (length (pv_states v) + k)%nat).
      * rewrite <- !app_assoc. apply nth_error_app_r, nth_error_app_l, Hk.
      * unfold column_stack. destruct (Nat.ltb_spec (length (pv_states v) + k) (length (pv_states v) + length (pv_controls v))); [reflexivity|lia].
    + intros k n Hk. pose proof (nth_error_lt _ _ _ Hk). unfold tb, pf_table. rewrite EA.
      apply (SH (length (pv_states v) + length (pv_controls v) + k)%nat).
      * rewrite <- !app_assoc. rewrite <- Nat.add_assoc. do 2 apply nth_error_app_r. exact Hk.
      * unfold column_stack.
        destruct (Nat.ltb_spec (length (pv_states v) + length (pv_controls v) + k) (length (pv_states v) + length (pv_controls v))); [lia|].
        f_equal. lia.
Qed.

(** A table as initial guess. *)
Lemma column_of_spec : forall n cols k, column_of n cols = Some k -> nth_error cols k = Some n.
Proof.
  intros n cols. induction cols as [|c r IH]; intros k H; cbn in H; [discriminate|].
  destruct (String.eqb_spec c n) as [->|].
  - injection H as <-. reflexivity.
  - destruct (column_of n r) as [j|]; [|discriminate]. injection H as <-. cbn. apply IH. reflexivity.
Qed.
Lemma column_of_none : forall n cols, column_of n cols = None <-> ~ In n cols.
Proof.
  intros n cols. induction cols as [|c r IH]; cbn; [tauto|]. destruct (String.eqb_spec c n) as [->|N].
  - split; [discriminate|]. intros H. exfalso. apply H. left. reflexivity.
  - destruct (column_of n r); split; intros H; try discriminate; try reflexivity.
    + exfalso. apply H. right. destruct IH as [_ IH]. destruct (in_dec string_dec n r) as [Hi|Hi]; [exact Hi|]. discriminate (IH Hi).
    + intros [E|Hi]; [contradiction|]. revert Hi. apply IH. reflexivity.
Qed.

Lemma select_spec : forall tb names,
  match select tb names with
  | Ok l => length l = length names /\ forall k n, nth_error names k = Some n -> nth_error (tb_columns tb) (nth k l 0%nat) = Some n
  | Err e => e = ExcKey /\ exists n, In n names /\ ~ In n (tb_columns tb)
  end.
Proof.
  intros tb names. induction names as [|n r IH]; cbn.
  - split; [reflexivity|]. intros k n H. destruct k; discriminate H.
  - destruct (column_of n (tb_columns tb)) as [j|] eqn:E.
    + destruct (select tb r) as [l|e]; cbn [bind].
      * destruct IH as (L & H). split; [cbn; rewrite L; reflexivity|]. intros [|k] m Hk; cbn in *.
        -- injection Hk as <-. apply column_of_spec, E.
        -- apply H, Hk.
      * destruct IH as (-> & m & Hm & Hn). split; [reflexivity|]. exists m. split; [right; exact Hm|exact Hn].
    + split; [reflexivity|]. exists n. split; [left; reflexivity|]. apply column_of_none, E.
Qed.

Theorem guess_spec : forall v tb, 
  match table_guess v tb with
  | Ok (rows, cols, p) =>
      rows = length (tb_index tb) /\ cols = (length (pv_states v) + length (pv_controls v))%nat /\
      (forall n, In n (pv_states v ++ pv_controls v) -> In n (tb_columns tb)) /\
      forall t d k n, NoDup (tb_columns tb) -> NoDup (tb_index tb) -> nth_error (tb_index tb) t = Some d ->
        nth_error (pv_states v ++ pv_controls v) k = Some n -> shows tb d n (p t k)
  | Err e => e = ExcKey /\ exists n, In n (pv_states v ++ pv_controls v) /\ ~ In n (tb_columns tb)
  end.
Proof.
  intros v tb. unfold table_guess. cbv zeta. pose proof (select_spec tb (pv_states v ++ pv_controls v)) as H.
  destruct (select tb (pv_states v ++ pv_controls v)) as [l|e]; cbn [bind]; [|exact H].
  destruct H as (L & H). split; [reflexivity|]. split; [rewrite app_length; reflexivity|]. split.
  - intros n Hn. apply In_nth_error in Hn. destruct Hn as (k & Hk). specialize (H k n Hk). exact (nth_error_In _ _ H).
  - intros t d k n N1 N2 Ht Hk. specialize (H k n Hk). exists t, (nth k l 0%nat). split; [exact Ht|]. split; [exact H|]. split; [reflexivity|].
    split.
    + intros t' Ht'. apply (proj1 (NoDup_nth_error _) N2); [apply nth_error_Some; congruence|congruence].
    + intros k' Hk'. apply (proj1 (NoDup_nth_error _) N1); [apply nth_error_Some; congruence|congruence].
Qed.

(** The table returned, given back as a guess, is the array of its states and controls. *)
Theorem guess_of_table : forall v o, variables_distinct v ->
  exists p, table_guess v (pf_table v o) = Ok (o_rows o, (length (pv_states v) + length (pv_controls v))%nat, p) /\
    forall t k, (t < o_rows o)%nat -> (k < length (pv_states v) + length (pv_controls v))%nat -> p t k = o_sol o t k.
Proof.
  intros v o HV. pose proof (guess_spec v (pf_table v o)) as H.
  assert (HC : forall n, In n (pv_states v ++ pv_controls v) -> In n (tb_columns (pf_table v o))).
  { intros n Hn. unfold pf_table. destruct (pv_aux v); cbn; rewrite !in_app_iff in *; tauto. }
  destruct (table_guess v (pf_table v o)) as [((rows, cols), p)|e].
  - destruct H as (-> & -> & _ & H). exists p.
    assert (LI : length (tb_index (pf_table v o)) = o_rows o).
    { unfold pf_table. destruct (pv_aux v); cbn; rewrite map_length, seq_length; reflexivity. }
    split; [rewrite LI; reflexivity|]. intros t k Ht Hk.
    assert (IX : tb_index (pf_table v o) = map (fun t => (o_first o + Z.of_nat t)%Z) (seq 0 (o_rows o))).
    { unfold pf_table. destruct (pv_aux v); reflexivity. }
    assert (N2 : NoDup (tb_index (pf_table v o))).
    { rewrite IX. apply Injective_map_NoDup; [|apply seq_NoDup]. intros a b E. lia. }
    destruct (nth_error (pv_states v ++ pv_controls v) k) as [n|] eqn:Ek; [|apply nth_error_None in Ek; rewrite app_length in Ek; lia].
    specialize (H t (o_first o + Z.of_nat t)%Z k n (columns_distinct v o HV) N2).
    rewrite IX in H. specialize (H (index_row o t Ht) Ek).
    pose proof (table_shows v o HV t Ht) as TS. cbv zeta in TS. destruct TS as (TS & TX & _).
    assert (W : shows (pf_table v o) (o_first o + Z.of_nat t) n (o_sol o t k)).
    { destruct (Nat.ltb_spec k (length (pv_states v))) as [L|L].
      - rewrite nth_error_app1 in Ek by exact L. exact (TS k n Ek).
      - rewrite nth_error_app2 in Ek by exact L. replace k with (length (pv_states v) + (k - length (pv_states v)))%nat by lia. exact (TX _ n Ek). }
    destruct H as (t1 & k1 & A1 & B1 & C1 & U1 & V1). destruct W as (t2 & k2 & A2 & B2 & C2 & U2 & V2).
    rewrite <- C1, <- C2. f_equal; [apply U2, A1|apply V2, B1].
  - destruct H as (_ & n & Hn & Hx). exfalso. apply Hx, HC, Hn.
Qed.
