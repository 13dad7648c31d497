(** Correctness of [gauss_solve], [invert], [serial_solve], [serial_multiplication]. *)
From Coq Require Import Reals List Arith Lia Lra.
From Verif.Base Require Import Prelude Sums.
From Verif.Model Require Import LinearSolve.
From Verif.Spec Require Import LinearAlgebra.
From Verif.Proofs Require Import Gauss.
Open Scope R_scope.

Lemma ker_augment : forall n A b z,
    ker n (n + 1) (augment n A b) z <->
    (forall i, (i < n)%nat -> mat_vec n A z i + b i * z n = 0).
Proof.
  intros n A b z.
  assert (E : forall i, rsum (n + 1) (fun j => augment n A b i j * z j) = mat_vec n A z i + b i * z n).
  { intro i. rewrite rsum_split. simpl. rewrite Nat.add_0_r. unfold augment at 2.
    rewrite Nat.ltb_irrefl. unfold mat_vec.
    rewrite (rsum_ext n _ (fun j => A i j * z j)); [lra|].
    intros j Hj. unfold augment. eqbs; reflexivity. }
  unfold ker. split; intros K i Hi; specialize (K i Hi); rewrite E in *; exact K.
Qed.

Lemma backward_prefix : forall h w m0 m1 k,
    (h < w)%nat -> (k <= h)%nat -> bwd_inv h w m0 0 m1 ->
    (exists m2, for_range_res k (fun k m => back_step h w (h - 1 - k)%nat m) m1 = Ok m2
                /\ bwd_inv h w m0 k m2)
     \/ ((0 < h)%nat /\ m1 (h - 1)%nat (h - 1)%nat = 0).
Proof.
  intros h w m0 m1 k Hw. induction k as [|k IH]; intros Hk HI.
  - left. exists m1. split; [reflexivity|exact HI].
  - destruct (IH ltac:(lia) HI) as [(m2 & E & H2)|H]; [|right; exact H].
    cbn [for_range_res]. rewrite E. cbn [bind].
    destruct (back_step h w (h - 1 - k) m2) as [m3|e] eqn:Eb.
    + left. exists m3. split; [reflexivity|]. apply (bwd_step h w m0 k m2 m3); assumption.
    + right. unfold back_step in Eb.
      destruct (Req_EM_T (m2 (h - 1 - k)%nat (h - 1 - k)%nat) 0) as [Z|NZ]; [|discriminate].
      destruct k as [|k].
      * simpl in E. injection E as <-. replace (h - 1 - 0)%nat with (h - 1)%nat in Z by lia.
        split; [lia|exact Z].
      * exfalso. destruct H2 as (_ & _ & Hp & _). apply (Hp (h - 1 - S k)%nat); [lia|lia|exact Z].
Qed.

Lemma gauss_solve_correct : forall n A b,
    match gauss_solve n A b with
    | Ok x => solves n A b x /\
              (forall y, solves n A b y -> forall i, (i < n)%nat -> y i = x i) /\
              ~ singular n A
    | Err _ => singular n A
    end.
Proof.
  intros n A b. unfold gauss_solve, solve_aug.
  set (m0 := augment n A b).
  assert (Hsing : forall y z, (y < n)%nat -> ker n (n + 1) m0 z -> z y = 1 ->
                  (forall j, (n <= j)%nat -> z j = 0) -> singular n A).
  { intros y z Hy K Hz1 Hz0. exists z. split; [exists y; split; [assumption|lra]|].
    pose proof (proj1 (ker_augment n A b z) K) as K'. intros i Hi. specialize (K' i Hi). rewrite (Hz0 n) in K' by lia. lra. }
  destruct (forward n (n + 1) m0) as [m1|e] eqn:Ef; cbn [bind].
  2:{ destruct (forward_err n (n + 1) m0 e ltac:(lia) Ef) as (y & z & Hy & K & Z1 & Z0).
      apply (Hsing y z); assumption. }
  pose proof (forward_ok n (n + 1) m0 m1 ltac:(lia) Ef) as (Hk & Hu & Hp).
  assert (HI : bwd_inv n (n + 1) m0 0 m1).
  { split; [exact Hk|]. split; [exact Hu|]. split.
    - intros x Hx Hxh. apply Hp; lia.
    - intros; lia. }
  destruct (backward_prefix n (n + 1) m0 m1 n ltac:(lia) ltac:(lia) HI) as [(m2 & E & H2)|[Hn Z]].
  2:{ assert (S1 : singular n A).
      { destruct (zero_pivot_kernel n (n + 1) (n - 1) m1) as (z & K & Z1 & Z2); try lia.
        - intros r x Hx Hxr Hr. apply Hu; lia.
        - intros x Hx. apply Hp; lia.
        - intros r H1 H2. replace r with (n - 1)%nat by lia. exact Z.
        - apply (Hsing (n - 1)%nat z); [lia|apply Hk; assumption|assumption|].
          intros j Hj. apply Z2. lia. }
      destruct (backward n (n + 1) m1) as [m2|e] eqn:Eb; cbn [bind]; [exfalso|exact S1].
      unfold backward in Eb. destruct n as [|n]; [lia|].
      clear - Eb Z.
      assert (HK : forall K, is_err (for_range_res (S K) (fun k m => back_step (S n) (S n + 1) (S n - 1 - k)%nat m) m1)).
      { induction K as [|K [e IH]].
        - cbn [for_range_res bind]. unfold back_step. rewrite Nat.sub_0_r, Z.
          destruct (Req_EM_T 0 0); [eexists; reflexivity|lra].
        - change (for_range_res (S (S K)) ?b m1) with (bind (for_range_res (S K) b m1) (b (S K))).
          rewrite IH. eexists; reflexivity. }
      destruct (HK n) as [e He]. rewrite He in Eb. discriminate. }
  unfold backward. rewrite E. cbn [bind].
  destruct H2 as (HK2 & _ & _ & He).
  assert (Hchar : forall z, ker n (n + 1) m0 z <-> forall r, (r < n)%nat -> z r + m2 r n * z n = 0).
  { intro z. rewrite <- HK2. rewrite (eye_kernel n (n + 1) m2 z); [|lia|intros; apply He; lia].
    replace (n + 1 - n)%nat with 1%nat by lia. simpl. rewrite Nat.add_0_r.
    split; intros K r Hr; specialize (K r Hr); lra. }
  replace (n + 1 - 1)%nat with n by lia.
  assert (Hsol : forall x, solves n A b x <-> forall r, (r < n)%nat -> x r = m2 r n).
  { intro x. pose (z := fun j => if Nat.eqb j n then -1 else x j).
    assert (Hz : forall i, mat_vec n A z i = mat_vec n A x i).
    { intro i. apply rsum_ext. intros j Hj. unfold z. eqbs; reflexivity. }
    assert (Hzn : z n = -1) by (unfold z; rewrite Nat.eqb_refl; reflexivity).
    split.
    - intros Hs r Hr. assert (K : ker n (n + 1) m0 z).
      { apply (proj2 (ker_augment n A b _)). intros i Hi. rewrite Hz, Hzn, (Hs i Hi). ring. }
      pose proof (proj1 (Hchar z) K r Hr) as K'. rewrite Hzn in K'.
      unfold z in K'. destruct (Nat.eqb_spec r n); [lia|]. lra.
    - intros Hx i Hi. assert (K : ker n (n + 1) m0 z).
      { apply Hchar. intros r Hr. rewrite Hzn. unfold z. destruct (Nat.eqb_spec r n); [lia|].
        rewrite Hx by assumption. ring. }
      pose proof (proj1 (ker_augment n A b z) K i Hi) as K'. rewrite Hz, Hzn in K'. lra. }
  split; [|split].
  - apply Hsol. reflexivity.
  - intros y Hy. apply Hsol. exact Hy.
  - intros (z & (i & Hi & Hne) & Hz). apply Hne.
    assert (K : ker n (n + 1) m0 (fun j => if Nat.ltb j n then z j else 0)).
    { apply (proj2 (ker_augment n A b _)). intros k Hk'. rewrite Nat.ltb_irrefl, Rmult_0_r, Rplus_0_r.
      rewrite <- (Hz k Hk'). apply rsum_ext. intros j Hj. eqbs; reflexivity. }
    pose proof (proj1 (Hchar _) K i Hi) as K'. cbv beta in K'.
    rewrite Nat.ltb_irrefl in K'. destruct (Nat.ltb_spec i n); [|lia]. lra.
Qed.

(** ** invert *)

(** [A] and [B] side by side. *)
Definition aug (n : nat) (A B : nat -> nat -> R) : nat -> nat -> R :=
  fun r c => if Nat.ltb c n then A r c else B r (c - n)%nat.

Definition inv_fwd (n q : nat) (A0 B0 : nat -> nat -> R) (i : nat)
                   (st : (nat -> nat -> R) * (nat -> nat -> R)) : Prop :=
  (forall z, ker n (n + q) (aug n (fst st) (snd st)) z <-> ker n (n + q) (aug n A0 B0) z) /\
  upper n i (fst st) /\
  (forall x, (x < i)%nat -> fst st x x = 1).

(** Eliminating rows, [rows] of them from [lo], using pivot row [i], closed form. *)
Lemma subtract_loop : forall n q i lo cnt A B,
    (forall k, (k < cnt)%nat -> (lo + k)%nat <> i) ->
    let st := for_range cnt (fun k st =>
          let i0 := (lo + k)%nat in
          let f := fst st i0 i in
          (substract_row n i0 i f (fst st), substract_row q i0 i f (snd st))) (A, B) in
    (i < n)%nat ->
    (forall r c, (c < n)%nat -> fst st r c =
       if andb (Nat.leb lo r) (Nat.ltb r (lo + cnt)) then A r c - A r i * A i c else A r c) /\
    (forall r c, (c < q)%nat -> snd st r c =
       if andb (Nat.leb lo r) (Nat.ltb r (lo + cnt)) then B r c - A r i * B i c else B r c).
Proof.
  intros n q i lo cnt A B Hne st Hi.
  assert (Hii : forall K, andb (Nat.leb lo i) (Nat.ltb i (lo + K)) = true -> (K <= cnt)%nat -> False).
  { intros K HK HKc. apply andb_prop in HK as [H1 H2]. apply Nat.leb_le in H1. apply Nat.ltb_lt in H2.
    apply (Hne (i - lo)%nat); lia. }
  apply (for_range_inv (fun K (st : (nat -> nat -> R) * (nat -> nat -> R)) => 
    (forall r c, (c < n)%nat -> fst st r c =
       if andb (Nat.leb lo r) (Nat.ltb r (lo + K)) then A r c - A r i * A i c else A r c) /\
    (forall r c, (c < q)%nat -> snd st r c =
       if andb (Nat.leb lo r) (Nat.ltb r (lo + K)) then B r c - A r i * B i c else B r c))).
  - split; intros; cbn [fst snd]; eqbs; reflexivity.
  - intros K [A' B'] HK [HA HB]. cbn [fst snd] in *.
    assert (Hi' : andb (Nat.leb lo i) (Nat.ltb i (lo + K)) = false).
    { destruct (andb _ _) eqn:E; [exfalso; apply (Hii K E); lia|reflexivity]. }
    specialize (Hne K HK).
    split; intros r c Hc; rewrite substract_row_spec by assumption.
    + rewrite !HA by lia. rewrite Hi'. destruct (Nat.eqb_spec r (lo + K)) as [->|Hr]; simpl; eqbs; try lra.
    + rewrite !HB by lia. rewrite (HA (lo + K)%nat i) by lia. rewrite Hi'.
      destruct (Nat.eqb_spec r (lo + K)) as [->|Hr]; simpl; eqbs; try lra.
Qed.

Lemma inv_fwd_step : forall n q p A0 B0 i A B,
    (i < n)%nat -> (q <= p)%nat -> inv_fwd n q A0 B0 i (A, B) ->
    let mi := find_pivot_last n i A in
    let A1 := swap_rows n i mi A in
    let B1 := swap_rows p i mi B in
    (A1 i i = 0 -> exists z, ker n (n + q) (aug n A0 B0) z /\ z i = 1 /\ (forall j, (i < j)%nat -> z j = 0)) /\
    (A1 i i <> 0 ->
       inv_fwd n q A0 B0 (S i)
         (for_range (n - (i + 1))
                  (fun k st =>
                     let i0 := (i + 1 + k)%nat in
                     let f := fst st i0 i in
                     (substract_row n i0 i f (fst st), substract_row q i0 i f (snd st)))
                  (divide_row n i (A1 i i) A1, divide_row q i (A1 i i) B1))).
Proof.
  intros n q p A0 B0 i A B Hi Hqp (HK & Hu & Hone) mi A1 B1. cbn [fst snd] in *.
  destruct (find_pivot_last_spec n i A Hi) as [Hr Hmax]. fold mi in Hr, Hmax.
  assert (HA1 : forall r c, (c < n)%nat -> A1 r c = if Nat.eqb r i then A mi c else if Nat.eqb r mi then A i c else A r c).
  { intros r c Hc. unfold A1. rewrite swap_rows_spec. eqbs; reflexivity. }
  assert (HB1 : forall r c, (c < q)%nat -> B1 r c = if Nat.eqb r i then B mi c else if Nat.eqb r mi then B i c else B r c).
  { intros r c Hc. unfold B1. rewrite swap_rows_spec. eqbs; reflexivity. }
  assert (HK1 : forall z, ker n (n + q) (aug n A1 B1) z <-> ker n (n + q) (aug n A0 B0) z).
  { intro z. rewrite <- HK. apply ker_swap with (a := i) (b := mi); [lia|lia|].
    intros r c Hr' Hc. unfold aug. destruct (Nat.ltb_spec c n).
    - apply HA1; assumption.
    - apply HB1; lia. }
  assert (Hu1 : upper n i A1).
  { intros r x Hx Hxr Hrn. rewrite HA1 by lia. eqbs; apply Hu; lia. }
  assert (Hone1 : forall x, (x < i)%nat -> A1 x x = 1).
  { intros x Hx. rewrite HA1 by lia. eqbs; apply Hone; lia. }
  split.
  - intros Z. assert (Zm : A mi i = 0) by (rewrite HA1 in Z by lia; rewrite Nat.eqb_refl in Z; exact Z).
    pose proof (pivot_zero_column n i mi A Hmax Zm) as Hcol.
    destruct (zero_pivot_kernel n (n + q) i (aug n A1 B1)) as (z & K & Z1 & Z0); [lia|lia| | | |].
    + intros r x Hx Hxr Hrn. unfold aug. eqbs. apply Hu1; lia.
    + intros x Hx. unfold aug. eqbs. rewrite Hone1 by lia. lra.
    + intros r H1 H2. unfold aug. eqbs. rewrite HA1 by lia. eqbs; apply Hcol; lia.
    + exists z. split; [apply HK1; exact K|]. split; assumption.
  - intros NZ. set (c := A1 i i) in *.
    set (A2 := divide_row n i c A1). set (B2 := divide_row q i c B1).
    assert (HA2 : forall r x, (x < n)%nat -> A2 r x = if Nat.eqb r i then A1 r x / c else A1 r x).
    { intros r x Hx. unfold A2. rewrite divide_row_spec. eqbs; reflexivity. }
    assert (HB2 : forall r x, (x < q)%nat -> B2 r x = if Nat.eqb r i then B1 r x / c else B1 r x).
    { intros r x Hx. unfold B2. rewrite divide_row_spec. eqbs; reflexivity. }
    destruct (subtract_loop n q i (i + 1) (n - (i + 1)) A2 B2 ltac:(intros; lia) Hi) as [HA3 HB3].
    set (st := for_range _ _ _) in *. clearbody st A2 B2.
    replace (i + 1 + (n - (i + 1)))%nat with n in * by lia.
    split; [|split].
    + intro z. rewrite <- HK1.
      rewrite <- (ker_scale n (n + q) i c (aug n A1 B1) (aug n A2 B2) z NZ).
      * apply ker_pivot with (p := i) (f := fun r => if Nat.leb (i + 1) r then A2 r i else 0).
        -- assumption.
        -- eqbs; reflexivity.
        -- intros r x Hr' Hx. unfold aug. destruct (Nat.ltb_spec x n).
           ++ rewrite HA3 by assumption. eqbs; ring.
           ++ rewrite HB3 by lia. eqbs; ring.
      * intros r x Hr' Hx. unfold aug. destruct (Nat.ltb_spec x n).
        -- apply HA2; assumption.
        -- apply HB2; lia.
    + intros r x Hx Hxr Hrn. rewrite HA3 by lia. rewrite !HA2 by lia.
      destruct (Nat.eq_dec x i) as [->|Hxi].
      * eqbs. fold c. field. exact NZ.
      * eqbs; rewrite ?(Hu1 r x), ?(Hu1 i x) by lia; try lra.
        all: subst; rewrite ?(Hu1 _ x) by lia; try lra.
    + intros x Hx. rewrite HA3 by lia. rewrite !HA2 by lia.
      destruct (Nat.eq_dec x i) as [->|Hxi].
      * eqbs. fold c. field. exact NZ.
      * eqbs. apply Hone1; lia.
Qed.

Definition inv_bwd (n q : nat) (A0 B0 : nat -> nat -> R) (k : nat)
                   (st : (nat -> nat -> R) * (nat -> nat -> R)) : Prop :=
  (forall z, ker n (n + q) (aug n (fst st) (snd st)) z <-> ker n (n + q) (aug n A0 B0) z) /\
  upper n n (fst st) /\
  (forall x, (x < n)%nat -> fst st x x = 1) /\
  (forall r c, (r < n)%nat -> (n - k <= c)%nat -> (c < n)%nat -> fst st r c = eye r c).

Lemma inv_bwd_step : forall n q A0 B0 k st,
    (k < n)%nat -> inv_bwd n q A0 B0 k st ->
    inv_bwd n q A0 B0 (S k)
      (for_range (n - 1 - k)
                  (fun i0 st =>
                     let f := fst st i0 (n - 1 - k)%nat in
                     (substract_row n i0 (n - 1 - k) f (fst st), substract_row q i0 (n - 1 - k) f (snd st)))
                  st).
Proof.
  intros n q A0 B0 k [A B] Hk (HK & Hu & H1 & He). cbn [fst snd] in *.
  set (i := (n - 1 - k)%nat).
  destruct (subtract_loop n q i 0 i A B ltac:(intros; lia) ltac:(lia)) as [HA HB].
  cbv zeta in HA, HB. simpl Nat.add in HA, HB.
  set (st := for_range _ _ _) in *. change (for_range i _ (A, B)) with st. clearbody st.
  split; [|split; [|split]].
  - intro z. rewrite <- HK.
    apply ker_pivot with (p := i) (f := fun r => if Nat.ltb r i then A r i else 0).
    + lia.
    + rewrite Nat.ltb_irrefl. reflexivity.
    + intros r c Hr Hc. unfold aug. destruct (Nat.ltb_spec c n).
      * rewrite HA by assumption. eqbs; ring.
      * rewrite HB by lia. eqbs; ring.
  - intros r x Hx Hxr Hr. rewrite HA by lia. destruct (Nat.ltb_spec r i); simpl.
    + rewrite (Hu r x), (Hu i x) by lia. ring.
    + apply Hu; lia.
  - intros x Hx. rewrite HA by lia. destruct (Nat.ltb_spec x i); simpl.
    + rewrite (H1 x Hx), (Hu i x) by lia. ring.
    + apply H1; assumption.
  - intros r c Hr Hc Hcn. rewrite HA by lia. unfold eye in *.
    destruct (Nat.eq_dec c i) as [Ec|Hci].
    + subst c. destruct (Nat.ltb_spec r i); simpl.
      * rewrite (H1 i) by lia. eqbs; lra.
      * destruct (Nat.eqb_spec r i) as [E|]; [rewrite E; apply H1; lia|apply Hu; lia].
    + rewrite (He r c) by lia. rewrite (He i c) by lia. clearbody i. eqbs; subst; try lra; try congruence.
Qed.

Lemma aug_solves : forall n q A B x k,
    (k < q)%nat ->
    (solves n A (fun i => B i k) x <->
     ker n (n + q) (aug n A B) (fun j => if Nat.ltb j n then x j else if Nat.eqb (j - n) k then -1 else 0)).
Proof.
  intros n q A B x k Hk.
  set (z := fun j => if Nat.ltb j n then x j else if Nat.eqb (j - n) k then -1 else 0).
  assert (E : forall i, rsum (n + q) (fun j => aug n A B i j * z j) = mat_vec n A x i - B i k).
  { intro i. rewrite rsum_split.
    rewrite (rsum_ext n _ (fun j => A i j * x j)) by (intros j Hj; unfold aug, z; eqbs; reflexivity).
    rewrite (rsum_single q k).
    - unfold aug, z. destruct (Nat.ltb_spec (n + k) n); [lia|].
      replace (n + k - n)%nat with k by lia. rewrite Nat.eqb_refl. unfold mat_vec. lra.
    - assumption.
    - intros j Hj Hne. unfold z. destruct (Nat.ltb_spec (n + j) n); [lia|].
      destruct (Nat.eqb_spec (n + j - n) k); [lia|]. ring. }
  unfold ker, solves. split; intros H i Hi; specialize (H i Hi); rewrite E in *; lra.
Qed.

Lemma aug_homog : forall n q A B z,
    (forall j, (n <= j)%nat -> z j = 0) ->
    (ker n (n + q) (aug n A B) z <-> solves n A (fun _ => 0) z).
Proof.
  intros n q A B z Hz.
  assert (E : forall i, rsum (n + q) (fun j => aug n A B i j * z j) = mat_vec n A z i).
  { intro i. rewrite rsum_split.
    rewrite (rsum_ext n _ (fun j => A i j * z j)) by (intros j Hj; unfold aug; eqbs; reflexivity).
    rewrite (rsum_0 q) by (intros j Hj; rewrite Hz by lia; ring). unfold mat_vec. lra. }
  unfold ker, solves. split; intros H i Hi; specialize (H i Hi); rewrite E in *; lra.
Qed.

Lemma mat_vec_eye : forall n A x i, (i < n)%nat ->
    (forall r c, (r < n)%nat -> (c < n)%nat -> A r c = eye r c) -> mat_vec n A x i = x i.
Proof.
  intros n A x i Hi He. unfold mat_vec. rewrite (rsum_single n i).
  - rewrite He by assumption. unfold eye. rewrite Nat.eqb_refl. ring.
  - assumption.
  - intros j Hj Hne. rewrite He by assumption. unfold eye. eqbs. ring.
Qed.

Lemma invert_core_correct : forall n p q A B,
    (q <= p)%nat ->
    match invert_core n p q A B with
    | Ok (A', B') =>
        (forall i j, (i < n)%nat -> (j < n)%nat -> A' i j = eye i j) /\
        (forall k, (k < q)%nat -> solves n A (fun i => B i k) (fun i => B' i k)) /\
        ~ singular n A
    | Err _ => singular n A
    end.
Proof.
  intros n p q A B Hqp. unfold invert_core.
  set (body := fun i st => _).
  assert (HF : forall K, (K <= n)%nat ->
     (exists st, for_range_res K body (A, B) = Ok st /\ inv_fwd n q A B K st)
     \/ (is_err (for_range_res K body (A, B)) /\ singular n A)).
  { induction K as [|K IH]; intros HK.
    - left. exists (A, B). split; [reflexivity|]. split; [tauto|]. split; [intros r x Hx; lia|intros; lia].
    - destruct (IH ltac:(lia)) as [([A' B'] & E & HI)|([e E] & HS)].
      + cbn [for_range_res]. rewrite E. cbn [bind].
        destruct (inv_fwd_step n q p A B K A' B' ltac:(lia) Hqp HI) as [HZ HN].
        cbv zeta in HZ, HN. unfold body. cbn [fst snd]. cbv zeta.
        destruct (Req_EM_T (swap_rows n K (find_pivot_last n K A') A' K K) 0) as [Z|NZ].
        * right. split; [eexists; reflexivity|].
          destruct (HZ Z) as (z & Kz & Z1 & Z0). exists z. split; [exists K; split; [lia|lra]|].
          apply (aug_homog n q A B); [intros j Hj; apply Z0; lia|exact Kz].
        * left. eexists. split; [reflexivity|]. apply HN; assumption.
      + right. split; [|exact HS]. cbn [for_range_res]. rewrite E. eexists; reflexivity. }
  destruct (HF n (le_n n)) as [(st & E & HI)|([e E] & HS)]; rewrite E; cbn [bind]; [|exact HS].
  destruct HI as (HK & Hu & H1).
  set (fin := for_range n _ st).
  assert (HB : inv_bwd n q A B n fin).
  { apply (for_range_inv (inv_bwd n q A B)).
    - split; [exact HK|]. split; [exact Hu|]. split; [exact H1|intros; lia].
    - intros k s Hk Hs. apply inv_bwd_step; assumption. }
  clearbody fin. destruct fin as [A' B']. destruct HB as (HK' & _ & _ & He). cbn [fst snd] in *.
  assert (He' : forall r c, (r < n)%nat -> (c < n)%nat -> A' r c = eye r c) by (intros; apply He; lia).
  split; [exact He'|]. split.
  - intros k Hk. apply (aug_solves n q A B _ k Hk). apply HK'. apply (aug_solves n q A' B' _ k Hk).
    intros i Hi. rewrite mat_vec_eye by assumption. reflexivity.
  - intros (z & (i & Hi & Hne) & Hz). apply Hne.
    assert (Hz' : solves n A' (fun _ => 0) (fun j => if Nat.ltb j n then z j else 0)).
    { apply (aug_homog n q A' B'); [intros j Hj; eqbs; reflexivity|]. apply HK'.
      apply (aug_homog n q A B); [intros j Hj; eqbs; reflexivity|].
      intros k Hk. rewrite <- (Hz k Hk). apply rsum_ext. intros j Hj. eqbs; reflexivity. }
    specialize (Hz' i Hi). rewrite mat_vec_eye in Hz' by assumption.
    destruct (Nat.ltb_spec i n); [exact Hz'|lia].
Qed.

(** Vectors, tensors, square matrices, and matrices with more than [n] columns. *)
Lemma invert_correct : forall n k A B,
    (rhs_visited n k <= rhs_cols n k)%nat ->
    match invert n k A B with
    | Ok (A', B') =>
        (forall i j, (i < n)%nat -> (j < n)%nat -> A' i j = eye i j) /\
        (forall c, (c < rhs_visited n k)%nat -> solves n A (fun i => B i c) (fun i => B' i c)) /\
        ~ singular n A
    | Err _ => singular n A
    end.
Proof.
  intros n k A B H. unfold invert. destruct (Nat.ltb_spec (rhs_cols n k) (rhs_visited n k)); [lia|].
  apply invert_core_correct; assumption.
Qed.

(** ** serial operations *)

Lemma serial_solve_diag_spec : forall ls N A B,
    match serial_solve_diag ls N A B with
    | SerialOk sol => forall i, (i < N)%nat -> ls (A i) (B i) = Ok (sol i)
    | SerialFail i => (i < N)%nat /\ is_err (ls (A i) (B i)) /\
                      forall j, (j < i)%nat -> exists x, ls (A j) (B j) = Ok x
    end.
Proof.
  intros ls N A B. unfold serial_solve_diag.
  apply (for_range_inv (fun N out => match out with
    | SerialOk sol => forall i, (i < N)%nat -> ls (A i) (B i) = Ok (sol i)
    | SerialFail i => (i < N)%nat /\ is_err (ls (A i) (B i)) /\
                      forall j, (j < i)%nat -> exists x, ls (A j) (B j) = Ok x
    end)).
  - intros; lia.
  - intros k out Hk HP. destruct out as [sol|i].
    + destruct (ls (A k) (B k)) as [x|e] eqn:E.
      * intros i Hi. destruct (Nat.eq_dec i k) as [->|Hne]; [rewrite upd_same; exact E|].
        rewrite upd_other by assumption. apply HP; lia.
      * split; [lia|]. split; [rewrite E; eexists; reflexivity|]. intros j Hj. eexists. apply HP; lia.
    + destruct HP as (H1 & H2 & H3). split; [lia|]. split; assumption.
Qed.

Lemma for_range_sum : forall n f v, for_range n (fun j v => v + f j) v = v + rsum n f.
Proof. induction n as [|n IH]; intros; simpl; [lra|]. rewrite IH. lra. Qed.

Lemma serial_multiplication_spec : forall NA I JA NB JB K A B,
    match serial_multiplication NA I JA NB JB K A B with
    | Ok r => JB = JA /\ NB = NA /\
              forall n i k, (n < NA)%nat -> (i < I)%nat -> (k < K)%nat ->
                r n i k = mat_mul JA (A n) (B n) i k
    | Err _ => JB <> JA \/ NB <> NA
    end.
Proof.
  intros NA I JA NB JB K A B. unfold serial_multiplication.
  destruct (Nat.eqb_spec JB JA); simpl; [|left; assumption].
  destruct (Nat.eqb_spec NB NA); simpl; [|right; assumption].
  split; [assumption|]. split; [assumption|].
  set (val := fun n i k => mat_mul JA (A n) (B n) i k).
  assert (HK : forall n0 i0 K' r0 n i k,
    for_range K' (fun k resp n' i' k' =>
                if andb (Nat.eqb n' n0) (andb (Nat.eqb i' i0) (Nat.eqb k' k))
                then for_range JA (fun j v => v + A n0 i0 j * B n0 j k) 0 else resp n' i' k') r0 n i k
    = if andb (Nat.eqb n n0) (andb (Nat.eqb i i0) (Nat.ltb k K')) then val n i k else r0 n i k).
  { intros n0 i0 K' r0. apply (for_range_inv (fun K' (r : nat -> nat -> nat -> R) => forall n i k, r n i k =
       if andb (Nat.eqb n n0) (andb (Nat.eqb i i0) (Nat.ltb k K')) then val n i k else r0 n i k)).
    - intros; eqbs; reflexivity.
    - intros k0 r Hk IH n i k. rewrite IH, for_range_sum.
      unfold val, mat_mul. eqbs; subst; try congruence; try lra. }
  assert (HI : forall n0 I' r0 n i k,
    for_range I' (fun i resp => for_range K (fun k resp n' i' k' =>
                if andb (Nat.eqb n' n0) (andb (Nat.eqb i' i) (Nat.eqb k' k))
                then for_range JA (fun j v => v + A n0 i j * B n0 j k) 0 else resp n' i' k') resp) r0 n i k
    = if andb (Nat.eqb n n0) (andb (Nat.ltb i I') (Nat.ltb k K)) then val n i k else r0 n i k).
  { intros n0 I' r0. apply (for_range_inv (fun I' (r : nat -> nat -> nat -> R) => forall n i k, r n i k =
       if andb (Nat.eqb n n0) (andb (Nat.ltb i I') (Nat.ltb k K)) then val n i k else r0 n i k)).
    - intros; eqbs; reflexivity.
    - intros i0 r Hi IH n i k. rewrite HK, IH. eqbs; subst; try congruence; try reflexivity. }
  intros n i k Hn Hi Hk. revert n i k Hn Hi Hk.
  apply (for_range_inv (fun N (r : nat -> nat -> nat -> R) => forall n i k, (n < N)%nat -> (i < I)%nat -> (k < K)%nat -> r n i k = val n i k)).
  - intros; lia.
  - intros n0 r Hn IH n i k H1 H2 H3. rewrite HI.
    destruct (Nat.eqb_spec n n0); simpl; [eqbs; reflexivity|]. apply IH; lia.
Qed.

(** ** rectangular right-hand sides: columns past the [n]-th are never reduced *)

Lemma invert_wide_wrong :
  exists A' B', invert 1 (RMat 2) (fun _ _ => 2) (fun _ _ => 2) = Ok (A', B')
    /\ B' 0%nat 1%nat = 2.
Proof.
  unfold invert, invert_core. simpl.
  assert (Hsw : forall p m, swap_rows p 0 0 m 0 0 = m 0%nat 0%nat).
  { intros. rewrite swap_rows_spec. eqbs; reflexivity. }
  replace (find_pivot_last 1 0 (fun _ _ => 2)) with 0%nat.
  2:{ unfold find_pivot_last. simpl. destruct (Rle_dec (-1) (Rabs 2)); reflexivity. }
  destruct (Req_EM_T (swap_rows 1 0 0 (fun _ _ => 2) 0 0) 0) as [Z|NZ].
  - exfalso. rewrite Hsw in Z. lra.
  - eexists. eexists. split; [reflexivity|].
    rewrite divide_row_spec. simpl. rewrite swap_rows_spec. reflexivity.
Qed.

Lemma invert_narrow_out_of_bounds : forall n p A B,
    (p < n)%nat -> invert n (RMat p) A B = Err ExcIndex.
Proof. intros n p A B H. unfold invert. simpl. destruct (Nat.ltb_spec p n); [reflexivity|lia]. Qed.

Lemma nonsingular_scalar : ~ singular 1 (fun _ _ => 2).
Proof.
  intros (z & (i & Hi & Hne) & Hz). apply Hne. specialize (Hz 0%nat ltac:(lia)).
  unfold mat_vec in Hz. simpl in Hz. assert (i = 0%nat) as -> by lia. lra.
Qed.

Lemma invert_rect_refuted :
  exists n p A B, (n < p)%nat /\ ~ singular n A /\
    exists A' B', invert n (RMat p) A B = Ok (A', B') /\
      ~ (forall k, (k < p)%nat -> solves n A (fun i => B i k) (fun i => B' i k)).
Proof.
  exists 1%nat, 2%nat, (fun _ _ => 2), (fun _ _ => 2).
  split; [lia|]. split; [exact nonsingular_scalar|].
  destruct invert_wide_wrong as (A' & B' & E & HB). exists A', B'. split; [exact E|].
  intro H. specialize (H 1%nat ltac:(lia) 0%nat ltac:(lia)). unfold mat_vec in H. simpl in H.
  rewrite HB in H. lra.
Qed.

Lemma invert_gu_correct : forall n A,
    match invert_gu n A with
    | Ok X => (forall i j, (i < n)%nat -> (j < n)%nat -> mat_mul n A X i j = eye i j) /\ ~ singular n A
    | Err _ => singular n A
    end.
Proof.
  intros n A. unfold invert_gu.
  pose proof (invert_correct n (RMat n) A (fun i j => if Nat.eqb i j then 1 else 0) (le_n n)) as H.
  destruct (invert n (RMat n) A _) as [[A' B']|e]; cbn [bind snd]; [|exact H].
  destruct H as (_ & H & Hs). split; [|exact Hs]. intros i j Hi Hj. exact (H j Hj i Hi).
Qed.

Lemma serial_solve_nodiag_correct : forall n N A B i,
    (i < N)%nat ->
    match serial_solve_nodiag n N A B i with
    | Some x => solves n (A i) (B i) x /\ ~ singular n (A i)
    | None => singular n (A i)
    end.
Proof.
  intros n N A B i _. unfold serial_solve_nodiag.
  pose proof (gauss_solve_correct n (A i) (B i)) as H.
  destruct (gauss_solve n (A i) (B i)); [|exact H]. destruct H as (H1 & _ & H2). split; assumption.
Qed.

(** Examples. *)
Lemma example_nonsingular : ~ singular 2 (fun i j => if Nat.eqb i j then 0 else INR (i + 1)).
Proof.
  intros (z & (i & Hi & Hne) & Hz). apply Hne.
  pose proof (Hz 0%nat ltac:(lia)) as H0. pose proof (Hz 1%nat ltac:(lia)) as H1.
  unfold mat_vec in H0, H1. simpl in H0, H1.
  destruct i as [|[|i]]; [lra|lra|lia].
Qed.

Lemma example_singular : singular 2 (fun _ _ => 1).
Proof.
  exists (fun i => if Nat.eqb i 0 then 1 else -1). split; [exists 0%nat; split; [lia|simpl; lra]|].
  intros i _. unfold mat_vec. simpl. lra.
Qed.

Lemma gauss_example :
  (exists x, gauss_solve 2 (fun i j => if Nat.eqb i j then 0 else INR (i + 1)) (fun i => INR i) = Ok x) /\
  is_err (gauss_solve 2 (fun _ _ => 1) (fun i => INR i)).
Proof.
  split.
  - pose proof (gauss_solve_correct 2 (fun i j => if Nat.eqb i j then 0 else INR (i + 1)) (fun i => INR i)) as H.
    destruct (gauss_solve _ _ _); [eexists; reflexivity|]. destruct (example_nonsingular H).
  - pose proof (gauss_solve_correct 2 (fun _ _ => 1) (fun i => INR i)) as H.
    destruct (gauss_solve _ _ _) as [x|e]; [|eexists; reflexivity]. destruct H as (_ & _ & H). destruct (H example_singular).
Qed.
