(** Gaussian elimination: closed forms of the row loops, invariance of the kernel of the
    augmented matrix, triangularisation. *)
From Coq Require Import Reals List Arith Lia Lra.
From Verif.Base Require Import Prelude Sums.
From Verif.Model Require Import LinearSolve.
From Verif.Spec Require Import LinearAlgebra.
Open Scope R_scope.

Ltac eqbs := repeat match goal with
  | |- context [Nat.eqb ?a ?b] => destruct (Nat.eqb_spec a b)
  | |- context [Nat.ltb ?a ?b] => destruct (Nat.ltb_spec a b)
  | |- context [Nat.leb ?a ?b] => destruct (Nat.leb_spec a b) end; simpl; try lia.

(** ** closed forms *)

Lemma swap_rows_spec : forall w a b m r c,
    swap_rows w a b m r c =
    if Nat.ltb c w then (if Nat.eqb r a then m b c else if Nat.eqb r b then m a c else m r c)
    else m r c.
Proof.
  intros w a b m. unfold swap_rows.
  apply (for_range_inv (fun k m' => forall r c, m' r c =
    if Nat.ltb c k then (if Nat.eqb r a then m b c else if Nat.eqb r b then m a c else m r c)
    else m r c)).
  - intros; reflexivity.
  - intros k m' Hk IH r c. unfold upd2. rewrite !IH. eqbs; subst; try congruence; try reflexivity.
Qed.

(** A row loop that updates row [i] in columns [e 0 .. e (n-1)] with values that depend on the
    initial matrix only. *)
Lemma row_loop : forall n i (e : nat -> nat) (body : nat -> (nat -> nat -> R) -> R)
                        (val : nat -> R) (m : nat -> nat -> R),
    (forall k l, (k < n)%nat -> (l < n)%nat -> e k = e l -> k = l) ->
    (forall k m', (k < n)%nat ->
        (forall r c, (r <> i \/ forall l, (l < k)%nat -> c <> e l) -> m' r c = m r c) ->
        body k m' = val k) ->
    forall r c,
      (forall k, (k < n)%nat -> r = i -> c = e k ->
         for_range n (fun k m => upd2 m i (e k) (body k m)) m r c = val k) /\
      ((r <> i \/ forall k, (k < n)%nat -> c <> e k) ->
         for_range n (fun k m => upd2 m i (e k) (body k m)) m r c = m r c).
Proof.
  intros n i e body val m Hinj Hbody.
  apply (for_range_inv (fun N m' => forall r c,
     (forall k, (k < N)%nat -> r = i -> c = e k -> m' r c = val k) /\
     ((r <> i \/ forall k, (k < N)%nat -> c <> e k) -> m' r c = m r c))).
  - intros r c. split; [intros; lia|reflexivity].
  - intros k m' Hk IH r c. split.
    + intros l Hl -> ->. destruct (Nat.eq_dec l k) as [->|Hne].
      * rewrite upd2_same. apply Hbody; [assumption|]. intros r c Hrc.
        now apply (proj2 (IH r c)).
      * rewrite upd2_other.
        -- apply (proj1 (IH i (e l))); [lia|reflexivity|reflexivity].
        -- right. intro E. apply Hinj in E; lia.
    + intros H. rewrite upd2_other.
      * apply (proj2 (IH r c)). destruct H as [H|H]; [left; exact H|right]. intros l Hl. apply H; lia.
      * destruct H as [H|H]; [left; exact H|right; apply H; lia].
Qed.

Lemma eliminate_row_spec : forall y w y2 c m r x,
    y2 <> y ->
    eliminate_row y w y2 c m r x =
    if andb (Nat.eqb r y2) (andb (Nat.leb y x) (Nat.ltb x w)) then m y2 x - m y x * c else m r x.
Proof.
  intros y w y2 c m r x Hne. unfold eliminate_row.
  pose proof (row_loop (w - y) y2 (fun k => (y + k)%nat)
    (fun k m => m y2 (y + k)%nat - m y (y + k)%nat * c)
    (fun k => m y2 (y + k)%nat - m y (y + k)%nat * c) m) as H.
  cbv beta in H.
  destruct (H ltac:(intros; lia)
    ltac:(intros k m' Hk Hm; cbv beta; rewrite !Hm; [reflexivity|left; congruence|right; intros; lia]) r x)
    as [H1 H2].
  destruct (Nat.eqb_spec r y2) as [->|Hr]; simpl.
  - destruct (Nat.leb_spec y x); simpl.
    + destruct (Nat.ltb_spec x w).
      * rewrite (H1 (x - y)%nat) by lia. replace (y + (x - y))%nat with x by lia. reflexivity.
      * apply H2. right. intros; lia.
    + apply H2. right. intros; lia.
  - apply H2. left. assumption.
Qed.

Lemma back_row_spec : forall y w y2 c m r x,
    y2 <> y -> (y < w)%nat ->
    back_row y w y2 c m r x =
    if andb (Nat.eqb r y2) (andb (Nat.leb y x) (Nat.ltb x w))
    then m y2 x - m y x * m y2 y / c else m r x.
Proof.
  intros y w y2 c m r x Hne Hyw. unfold back_row.
  pose proof (row_loop (w - y) y2 (fun k => (w - 1 - k)%nat)
    (fun k m => m y2 (w - 1 - k)%nat - m y (w - 1 - k)%nat * m y2 y / c)
    (fun k => m y2 (w - 1 - k)%nat - m y (w - 1 - k)%nat * m y2 y / c) m) as H.
  cbv beta in H.
  destruct (H ltac:(intros; lia)
    ltac:(intros k m' Hk Hm; cbv beta; rewrite !Hm; [reflexivity|right; intros; lia|left; congruence|right; intros; lia]) r x)
    as [H1 H2].
  destruct (Nat.eqb_spec r y2) as [->|Hr]; simpl.
  - destruct (Nat.leb_spec y x); simpl.
    + destruct (Nat.ltb_spec x w).
      * rewrite (H1 (w - 1 - x)%nat) by lia. replace (w - 1 - (w - 1 - x))%nat with x by lia. reflexivity.
      * apply H2. right. intros; lia.
    + apply H2. right. intros; lia.
  - apply H2. left. assumption.
Qed.

Lemma divide_row_spec : forall q i c M r x,
    divide_row q i c M r x = if andb (Nat.eqb r i) (Nat.ltb x q) then M r x / c else M r x.
Proof.
  intros q i c M r x. unfold divide_row.
  destruct (row_loop q i (fun k => k) (fun k M => M i k / c) (fun k => M i k / c) M
              ltac:(intros; lia)
              ltac:(intros k m' Hk Hm; cbv beta; rewrite Hm; [reflexivity|right; intros; lia]) r x) as [H1 H2].
  destruct (Nat.eqb_spec r i) as [->|Hr]; simpl.
  - destruct (Nat.ltb_spec x q).
    + apply (H1 x); auto.
    + apply H2. right; intros; lia.
  - apply H2. left; assumption.
Qed.

Lemma substract_row_spec : forall q i j c M r x,
    i <> j ->
    substract_row q i j c M r x =
    if andb (Nat.eqb r i) (Nat.ltb x q) then M i x - c * M j x else M r x.
Proof.
  intros q i j c M r x Hij. unfold substract_row.
  destruct (row_loop q i (fun k => k) (fun k M => M i k - c * M j k) (fun k => M i k - c * M j k) M
              ltac:(intros; lia)
              ltac:(intros k m' Hk Hm; cbv beta; rewrite !Hm; [reflexivity|left; congruence|right; intros; lia]) r x) as [H1 H2].
  destruct (Nat.eqb_spec r i) as [->|Hr]; simpl.
  - destruct (Nat.ltb_spec x q).
    + apply (H1 x); auto.
    + apply H2. right; intros; lia.
  - apply H2. left; assumption.
Qed.

(** ** kernels and elementary row operations *)

Definition ker (h w : nat) (m : nat -> nat -> R) (z : nat -> R) : Prop :=
  forall i, (i < h)%nat -> rsum w (fun j => m i j * z j) = 0.

Definition eq2 (h w : nat) (m m' : nat -> nat -> R) : Prop :=
  forall r c, (r < h)%nat -> (c < w)%nat -> m r c = m' r c.

Lemma ker_ext : forall h w m m' z, eq2 h w m m' -> (ker h w m z <-> ker h w m' z).
Proof.
  intros h w m m' z H. split; intros K i Hi; rewrite <- (K i Hi); apply rsum_ext; intros j Hj;
    rewrite (H i j) by assumption; reflexivity.
Qed.

Lemma ker_swap : forall h w a b m m' z,
    (a < h)%nat -> (b < h)%nat ->
    eq2 h w m' (fun r c => if Nat.eqb r a then m b c else if Nat.eqb r b then m a c else m r c) ->
    (ker h w m' z <-> ker h w m z).
Proof.
  intros h w a b m m' z Ha Hb H. rewrite (ker_ext _ _ _ _ _ H). clear H m'. unfold ker. split; intros K i Hi.
  - destruct (Nat.eq_dec i a) as [->|Hia].
    + specialize (K b Hb). rewrite <- K. apply rsum_ext; intros j Hj. eqbs; congruence.
    + destruct (Nat.eq_dec i b) as [->|Hib].
      * specialize (K a Ha). rewrite <- K. apply rsum_ext; intros j Hj. eqbs; congruence.
      * specialize (K i Hi). rewrite <- K. apply rsum_ext; intros j Hj. eqbs; congruence.
  - destruct (Nat.eq_dec i a) as [->|Hia].
    + rewrite <- (K b Hb). apply rsum_ext; intros j Hj. eqbs; congruence.
    + destruct (Nat.eq_dec i b) as [->|Hib].
      * rewrite <- (K a Ha). apply rsum_ext; intros j Hj. eqbs; congruence.
      * rewrite <- (K i Hi). apply rsum_ext; intros j Hj. eqbs; congruence.
Qed.

(** Subtract multiples of row [p] from the other rows, all at once. *)
Lemma ker_pivot : forall h w p (f : nat -> R) m m' z,
    (p < h)%nat -> f p = 0 ->
    eq2 h w m' (fun r c => m r c - f r * m p c) ->
    (ker h w m' z <-> ker h w m z).
Proof.
  intros h w p f m m' z Hp Hf H. rewrite (ker_ext _ _ _ _ _ H). clear H m'. unfold ker.
  assert (E : forall i, rsum w (fun j => (m i j - f i * m p j) * z j)
              = rsum w (fun j => m i j * z j) - f i * rsum w (fun j => m p j * z j)).
  { intro i. rewrite <- rsum_scal, <- rsum_minus. apply rsum_ext; intros; ring. }
  split; intros K i Hi.
  - pose proof (K p Hp) as Kp. rewrite E, Hf in Kp.
    pose proof (K i Hi) as Ki. rewrite E in Ki. 
    assert (rsum w (fun j => m p j * z j) = 0) as Z by lra. rewrite Z in Ki. lra.
  - rewrite E, (K i Hi), (K p Hp). ring.
Qed.

Lemma ker_scale : forall h w p c m m' z,
    c <> 0 ->
    eq2 h w m' (fun r x => if Nat.eqb r p then m r x / c else m r x) ->
    (ker h w m' z <-> ker h w m z).
Proof.
  intros h w p c m m' z Hc H. rewrite (ker_ext _ _ _ _ _ H). clear H m'. unfold ker.
  assert (E : forall i, rsum w (fun j => (if Nat.eqb i p then m i j / c else m i j) * z j)
              = (if Nat.eqb i p then / c else 1) * rsum w (fun j => m i j * z j)).
  { intro i. rewrite <- rsum_scal. apply rsum_ext; intros. destruct (Nat.eqb i p); [field; assumption|ring]. }
  split; intros K i Hi.
  - specialize (K i Hi). rewrite E in K. apply Rmult_integral in K as [K|K]; [|assumption].
    exfalso. destruct (Nat.eqb i p); [|lra]. apply (Rinv_neq_0_compat c) in Hc. lra.
  - rewrite E, (K i Hi). ring.
Qed.

(** ** solving upper triangular systems; a zero pivot column gives a kernel vector *)

(** [c] columns in echelon form with nonzero pivots. *)
Definition upper (h c : nat) (m : nat -> nat -> R) : Prop :=
  forall r x, (x < c)%nat -> (x < r)%nat -> (r < h)%nat -> m r x = 0.

Definition pivots (c : nat) (m : nat -> nat -> R) : Prop :=
  forall x, (x < c)%nat -> m x x <> 0.

Lemma upper_solve : forall c h m (b : nat -> R),
    (c <= h)%nat -> upper h c m -> pivots c m ->
    exists z, forall r, (r < c)%nat -> rsum c (fun j => m r j * z j) = b r.
Proof.
  induction c as [|c IH]; intros h m b Hc Hu Hp.
  - exists (fun _ => 0). intros; lia.
  - set (t := b c / m c c).
    destruct (IH h m (fun r => b r - m r c * t)) as [z Hz]; [lia| | |].
    + intros r x Hx Hxr Hr. apply Hu; lia.
    + intros x Hx. apply Hp; lia.
    + exists (fun j => if Nat.eqb j c then t else z j).
      intros r Hr. simpl. rewrite Nat.eqb_refl.
      rewrite (rsum_ext c _ (fun j => m r j * z j))
        by (intros j Hj; destruct (Nat.eqb_spec j c); [lia|reflexivity]).
      destruct (Nat.eq_dec r c) as [->|Hrc].
      * rewrite rsum_0.
        -- unfold t. field. apply Hp; lia.
        -- intros j Hj. rewrite (Hu c j) by lia. ring.
      * rewrite Hz by lia. ring.
Qed.

Lemma zero_pivot_kernel : forall h w y m,
    (y < h)%nat -> (h <= w)%nat -> upper h y m -> pivots y m ->
    (forall r, (y <= r)%nat -> (r < h)%nat -> m r y = 0) ->
    exists z, ker h w m z /\ z y = 1 /\ (forall j, (y < j)%nat -> z j = 0).
Proof.
  intros h w y m Hy Hw Hu Hp H0.
  destruct (upper_solve y h m (fun r => - m r y)) as [z Hz]; [lia|assumption|assumption|].
  exists (fun j => if Nat.ltb j y then z j else if Nat.eqb j y then 1 else 0).
  split; [|split].
  - intros i Hi. replace w with (y + (1 + (w - y - 1)))%nat by lia.
    rewrite rsum_split, (rsum_split 1). 
    rewrite (rsum_ext y _ (fun j => m i j * z j)) by (intros j Hj; eqbs; reflexivity).
    rewrite (rsum_0 (w - y - 1)) by (intros j Hj; eqbs; ring).
    simpl rsum. rewrite Nat.add_0_r. rewrite Nat.ltb_irrefl, Nat.eqb_refl.
    destruct (Nat.lt_ge_cases i y) as [Hiy|Hiy].
    + rewrite Hz by assumption. ring.
    + rewrite H0 by assumption. rewrite rsum_0; [ring|]. intros j Hj. rewrite (Hu i j) by lia. ring.
  - rewrite Nat.ltb_irrefl, Nat.eqb_refl. reflexivity.
  - intros j Hj. eqbs; reflexivity.
Qed.

(** ** pivot choice *)

Lemma find_pivot_spec : forall h y m,
    (y < h)%nat ->
    (y <= find_pivot h y m < h)%nat /\
    (forall r, (y <= r)%nat -> (r < h)%nat -> Rabs (m r y) <= Rabs (m (find_pivot h y m) y)).
Proof.
  intros h y m Hy. unfold find_pivot.
  set (body := fun k maxrow => _).
  assert (H : (fun k p => (y <= p < y + 1 + k)%nat /\
     forall r, (y <= r)%nat -> (r < y + 1 + k)%nat -> Rabs (m r y) <= Rabs (m p y))
     (h - (y + 1))%nat (for_range (h - (y + 1)) body y)).
  { apply (for_range_inv (fun k p => (y <= p < y + 1 + k)%nat /\
     forall r, (y <= r)%nat -> (r < y + 1 + k)%nat -> Rabs (m r y) <= Rabs (m p y))).
    - split; [lia|]. intros r H1 H2. replace r with y by lia. lra.
    - intros k p Hk [Hp Hm]. unfold body.
      destruct (Rlt_dec (Rabs (m p y)) (Rabs (m (y + 1 + k)%nat y))) as [Hlt|Hge].
      + split; [lia|]. intros r H1 H2. destruct (Nat.eq_dec r (y + 1 + k)) as [->|Hne]; [lra|].
        specialize (Hm r H1 ltac:(lia)). lra.
      + split; [lia|]. intros r H1 H2. destruct (Nat.eq_dec r (y + 1 + k)) as [->|Hne]; [lra|].
        apply Hm; lia. }
  cbv beta in H. destruct H as [Hp Hm]. split; [lia|]. intros; apply Hm; lia.
Qed.

Lemma find_pivot_last_spec : forall n i m,
    (i < n)%nat ->
    (i <= find_pivot_last n i m < n)%nat /\
    (forall r, (i <= r)%nat -> (r < n)%nat -> Rabs (m r i) <= Rabs (m (find_pivot_last n i m) i)).
Proof.
  intros n i m Hi. unfold find_pivot_last.
  set (body := fun k st => _).
  pose (P := fun k (st : R * nat) => (k = 0%nat /\ st = (-1, 0%nat)) \/
     ((i <= snd st < i + k)%nat /\ fst st = Rabs (m (snd st) i) /\
     forall r, (i <= r)%nat -> (r < i + k)%nat -> Rabs (m r i) <= Rabs (m (snd st) i))).
  assert (H : P (n - i)%nat (for_range (n - i) body (-1, 0%nat))).
  { apply (for_range_inv P).
    - left. split; reflexivity.
    - intros k [e p] Hk HP. right. unfold body. cbn [fst snd].
      destruct HP as [[-> E]|(Hp & He & Hm)].
      + injection E as -> ->. rewrite Nat.add_0_r.
        destruct (Rle_dec (-1) (Rabs (m i i))) as [_|Hn]; [|pose proof (Rabs_pos (m i i)); lra].
        cbn [fst snd]. split; [lia|]. split; [reflexivity|]. intros r H1 H2. replace r with i by lia. lra.
      + cbn [fst snd] in *. destruct (Rle_dec e (Rabs (m (i + k)%nat i))) as [Hle|Hgt]; cbn [fst snd].
        * split; [lia|]. split; [reflexivity|]. intros r H1 H2.
          destruct (Nat.eq_dec r (i + k)) as [->|Hne]; [lra|]. specialize (Hm r H1 ltac:(lia)). lra.
        * split; [lia|]. split; [assumption|]. intros r H1 H2.
          destruct (Nat.eq_dec r (i + k)) as [->|Hne]; [lra|]. apply Hm; lia. }
  destruct H as [[H _]|(Hp & _ & Hm)]; [lia|]. split; [lia|]. intros; apply Hm; lia.
Qed.

Lemma pivot_zero_column : forall h y p (m : nat -> nat -> R),
    (forall r, (y <= r)%nat -> (r < h)%nat -> Rabs (m r y) <= Rabs (m p y)) ->
    m p y = 0 -> forall r, (y <= r)%nat -> (r < h)%nat -> m r y = 0.
Proof.
  intros h y p m H H0 r H1 H2. specialize (H r H1 H2). rewrite H0, Rabs_R0 in H.
  pose proof (Rabs_pos (m r y)). destruct (Req_dec (m r y) 0) as [E|E]; [assumption|].
  apply Rabs_pos_lt in E. lra.
Qed.

(** ** forward elimination (newton.solve) *)

Lemma eliminate_below_spec : forall h w y m m',
    (y < h)%nat -> (h <= w)%nat ->
    eliminate_below h w y m = Ok m' ->
    ((S y < h)%nat -> m y y <> 0) /\
    (m y y <> 0 -> forall r c, (r < h)%nat -> (c < w)%nat -> m' r c =
       if andb (Nat.ltb y r) (Nat.leb y c) then m r c - m r y / m y y * m y c else m r c) /\
    (m y y = 0 -> (S y = h)%nat /\ m' = m).
Proof.
  intros h w y m m' Hy Hw E. unfold eliminate_below in E.
  destruct (Req_dec (m y y) 0) as [Z|NZ].
  - destruct (h - (y + 1))%nat as [|k] eqn:Ek; rewrite ?Ek in E.
    + simpl in E. injection E as <-. split; [lia|]. split; [intros; lra|]. split; [lia|reflexivity].
    + exfalso. assert (forall K, (1 <= K)%nat -> is_err (for_range_res K (fun k m =>
        let y2 := (y + 1 + k)%nat in
        if Req_EM_T (m y y) 0 then Err ResultNaN
        else Ok (eliminate_row y w y2 (m y2 y / m y y) m)) m)) as HK.
      { induction K as [|K IHK]; [lia|]. intros _. destruct K as [|K].
        - simpl. destruct (Req_EM_T (m y y) 0); [eexists; reflexivity|contradiction].
        - destruct (IHK ltac:(lia)) as [e He]. cbn [for_range_res] in *. rewrite He. simpl. eexists; reflexivity. }
      destruct (HK (S k) ltac:(lia)) as [e He]. unfold eliminate_below in E; cbv zeta in *; congruence.
  - split; [intros _; exact NZ|]. split; [|intros; lra]. intros _.
    set (P := fun k (mm : nat -> nat -> R) => forall r c, (c < w)%nat -> mm r c =
       if andb (andb (Nat.ltb y r) (Nat.ltb r (y + 1 + k))) (Nat.leb y c)
       then m r c - m r y / m y y * m y c else m r c).
    assert (H : P (h - (y + 1))%nat m').
    { apply (for_range_res_inv P) with (body := fun k m =>
        let y2 := (y + 1 + k)%nat in
        if Req_EM_T (m y y) 0 then Err ResultNaN
        else Ok (eliminate_row y w y2 (m y2 y / m y y) m)) (s := m); [| |exact E].
      - intros r c Hc. eqbs; reflexivity.
      - intros k mm mm' Hk HP Hb. cbv zeta in Hb.
        destruct (Req_EM_T (mm y y) 0); [discriminate|]. injection Hb as <-.
        intros r c Hc. rewrite eliminate_row_spec by lia.
        unfold P in HP; rewrite !HP by lia.
        destruct (Nat.eqb_spec r (y + 1 + k)) as [->|Hr]; simpl.
        + eqbs; try reflexivity; field; assumption.
        + eqbs; reflexivity. }
    intros r c Hr Hc. rewrite (H r c Hc). eqbs; reflexivity.
Qed.

Lemma eliminate_below_err : forall h w y m e,
    (y < h)%nat -> eliminate_below h w y m = Err e -> m y y = 0.
Proof.
  intros h w y m e Hy E. unfold eliminate_below in E.
  destruct (Req_dec (m y y) 0) as [Z|NZ]; [assumption|exfalso].
  assert (HK : forall K, exists m', for_range_res K (fun k m =>
        let y2 := (y + 1 + k)%nat in
        if Req_EM_T (m y y) 0 then Err ResultNaN
        else Ok (eliminate_row y w y2 (m y2 y / m y y) m)) m = Ok m' /\ m' y y = m y y).
  { induction K as [|K (m' & EK & HK)]; [exists m; split; reflexivity|].
    cbn [for_range_res]. cbv zeta in EK |- *. rewrite EK. simpl. rewrite HK.
    destruct (Req_EM_T (m y y) 0); [contradiction|].
    eexists; split; [reflexivity|]. rewrite eliminate_row_spec by lia.
    destruct (Nat.eqb_spec y (y + 1 + K)); [lia|]. simpl. assumption. }
  destruct (HK (h - (y + 1))%nat) as (mm & EK & _). cbv zeta in EK, E. congruence.
Qed.

(** State after [y] steps of the forward phase. *)
Definition fwd_inv (h w : nat) (m0 : nat -> nat -> R) (y : nat) (m : nat -> nat -> R) : Prop :=
  (forall z, ker h w m z <-> ker h w m0 z) /\
  upper h y m /\
  (forall x, (x < y)%nat -> (S x < h)%nat -> m x x <> 0).

Lemma fwd_swap : forall h w m0 y m,
    (h <= w)%nat -> (y < h)%nat -> fwd_inv h w m0 y m ->
    let m1 := swap_rows w y (find_pivot h y m) m in
    fwd_inv h w m0 y m1 /\
    (m1 y y = 0 -> forall r, (y <= r)%nat -> (r < h)%nat -> m1 r y = 0).
Proof.
  intros h w m0 y m Hw Hy (Hk & Hu & Hp) m1.
  destruct (find_pivot_spec h y m Hy) as [Hpr Hpm]. set (p := find_pivot h y m) in *.
  assert (Hm1 : forall r c, (c < w)%nat -> m1 r c =
     (if Nat.eqb r y then m p c else if Nat.eqb r p then m y c else m r c)).
  { intros r c Hc. unfold m1. rewrite swap_rows_spec. destruct (Nat.ltb_spec c w); [reflexivity|lia]. }
  split.
  - split; [|split].
    + intro z. rewrite <- Hk. apply ker_swap with (a := y) (b := p); [lia|lia|].
      intros r c Hr Hc. apply Hm1; assumption.
    + intros r x Hx Hxr Hr. rewrite Hm1 by lia. eqbs; apply Hu; lia.
    + intros x Hx Hxh. rewrite Hm1 by lia. eqbs; apply Hp; lia.
  - intros H0 r Hr Hrh.
    assert (Hz : m p y = 0). { rewrite Hm1 in H0 by lia. rewrite Nat.eqb_refl in H0. exact H0. }
    rewrite Hm1 by lia. pose proof (pivot_zero_column h y p m Hpm Hz).
    eqbs; apply H; lia.
Qed.

Lemma forward_ok : forall h w m0 m,
    (h <= w)%nat -> forward h w m0 = Ok m -> fwd_inv h w m0 h m.
Proof.
  intros h w m0 m Hw E. unfold forward in E.
  apply (for_range_res_inv (fwd_inv h w m0)) with (3 := E).
  - split; [tauto|]. split; [intros r x Hx; lia|intros; lia].
  - intros y mm mm' Hy HI Hb.
    destruct (fwd_swap h w m0 y mm Hw Hy HI) as [(Hk & Hu & Hp) Hz].
    set (m1 := swap_rows w y (find_pivot h y mm) mm) in *.
    destruct (eliminate_below_spec h w y m1 mm' Hy Hw Hb) as (H1 & H2 & H3).
    destruct (Req_dec (m1 y y) 0) as [Z|NZ].
    + destruct (H3 Z) as [Hl ->]. split; [exact Hk|]. split.
      * intros r x Hx Hxr Hr. destruct (Nat.eq_dec x y) as [->|Hxy]; [apply Hz; [assumption|lia|lia]|apply Hu; lia].
      * intros x Hx Hxh. apply Hp; lia.
    + specialize (H2 NZ). split; [|split].
      * intro z. rewrite <- Hk.
        apply ker_pivot with (p := y) (f := fun r => if Nat.ltb y r then m1 r y / m1 y y else 0).
        -- assumption.
        -- rewrite Nat.ltb_irrefl. reflexivity.
        -- intros r c Hr Hc. rewrite H2 by assumption. eqbs; try ring.
           rewrite (Hu y c) by lia. ring.
      * intros r x Hx Hxr Hr. rewrite H2 by lia. eqbs.
        -- assert (x = y) as -> by lia. field. assumption.
        -- apply Hu; lia.
        -- apply Hu; lia.
      * intros x Hx Hxh. rewrite H2 by lia. eqbs; (destruct (Nat.eq_dec x y) as [->|Hxy]; [assumption|apply Hp; lia]).
Qed.

Lemma forward_err : forall h w m0 e,
    (h <= w)%nat -> forward h w m0 = Err e ->
    exists y z, (y < h)%nat /\ ker h w m0 z /\ z y = 1 /\ (forall j, (h <= j)%nat -> z j = 0).
Proof.
  intros h w m0 e Hw E. unfold forward in E.
  set (body := fun y m => eliminate_below h w y (swap_rows w y (find_pivot h y m) m)) in E.
  assert (HK : forall K, (K <= h)%nat ->
     (exists m, for_range_res K body m0 = Ok m) \/
     exists y z, (y < h)%nat /\ ker h w m0 z /\ z y = 1 /\ (forall j, (h <= j)%nat -> z j = 0)).
  { induction K as [|K IH]; intros HKh; [left; eexists; reflexivity|].
    destruct (IH ltac:(lia)) as [[m Em]|R]; [|right; exact R].
    cbn [for_range_res]. rewrite Em. simpl.
    destruct (body K m) as [m'|e'] eqn:Eb; [left; eexists; reflexivity|right].
    assert (HI : fwd_inv h w m0 K m /\ (forall x, (x < K)%nat -> m x x <> 0)).
    { assert (HI : fwd_inv h w m0 K m).
      { apply (for_range_res_inv (fwd_inv h w m0)) with (3 := Em).
        - split; [tauto|]. split; [intros r x Hx; lia|intros; lia].
        - intros y mm mm' Hy HI Hb.
          destruct (fwd_swap h w m0 y mm Hw ltac:(lia) HI) as [(Hk & Hu & Hp) Hz].
          set (m1 := swap_rows w y (find_pivot h y mm) mm) in *.
          destruct (eliminate_below_spec h w y m1 mm' ltac:(lia) Hw Hb) as (H1 & H2 & H3).
          destruct (Req_dec (m1 y y) 0) as [Z|NZ].
          + destruct (H3 Z) as [Hl ->]. lia.
          + specialize (H2 NZ). split; [|split].
            * intro z. rewrite <- Hk.
              apply ker_pivot with (p := y) (f := fun r => if Nat.ltb y r then m1 r y / m1 y y else 0).
              -- lia.
              -- rewrite Nat.ltb_irrefl. reflexivity.
              -- intros r c Hr Hc. rewrite H2 by assumption. eqbs; try ring.
                 rewrite (Hu y c) by lia. ring.
            * intros r x Hx Hxr Hr. rewrite H2 by lia. eqbs.
              -- assert (x = y) as -> by lia. field. assumption.
              -- apply Hu; lia.
              -- apply Hu; lia.
            * intros x Hx Hxh. rewrite H2 by lia. eqbs; (destruct (Nat.eq_dec x y) as [->|Hxy]; [assumption|apply Hp; lia]). }
      split; [exact HI|]. intros x Hx. apply HI; lia. }
    destruct HI as [HI Hpiv].
    destruct (fwd_swap h w m0 K m Hw ltac:(lia) HI) as [(Hk & Hu & Hp) Hz].
    unfold body in Eb. set (m1 := swap_rows w K (find_pivot h K m) m) in *.
    apply eliminate_below_err in Eb; [|lia].
    destruct (zero_pivot_kernel h w K m1) as (z & Kz & Z1 & Z2); [lia|lia|assumption| |apply Hz; assumption|].
    { intros x Hx. apply Hp; lia. }
    exists K, z. split; [lia|]. split; [apply Hk; assumption|]. split; [assumption|].
    intros j Hj. apply Z2. lia. }
  destruct (HK h (le_n h)) as [[m Em]|R]; [rewrite E in Em; discriminate|exact R].
Qed.

(** ** back substitution *)

Lemma back_step_spec : forall h w y m m',
    (y < h)%nat -> (h < w)%nat ->
    back_step h w y m = Ok m' ->
    m y y <> 0 /\
    forall r c, (r < h)%nat -> (c < w)%nat -> m' r c =
      if Nat.ltb r y then (if Nat.leb y c then m r c - m y c * m r y / m y y else m r c)
      else if Nat.eqb r y then (if orb (Nat.eqb c y) (Nat.leb h c) then m r c / m y y else m r c)
      else m r c.
Proof.
  intros h w y m m' Hy Hw E. unfold back_step in E.
  destruct (Req_EM_T (m y y) 0) as [Z|NZ]; [discriminate|]. split; [assumption|].
  injection E as E.
  set (m1 := for_range y (fun y2 m0 => back_row y w y2 (m y y) m0) m) in E.
  assert (H1 : forall r c, (c < w)%nat -> m1 r c =
     if andb (Nat.ltb r y) (Nat.leb y c) then m r c - m y c * m r y / m y y else m r c).
  { apply (for_range_inv (fun k mm => forall r c, (c < w)%nat -> mm r c =
      if andb (Nat.ltb r k) (Nat.leb y c) then m r c - m y c * m r y / m y y else m r c)).
    - intros; reflexivity.
    - intros k mm Hk IH r c Hc. rewrite back_row_spec by lia. rewrite !IH by lia.
      destruct (Nat.eqb_spec r k) as [->|Hr]; simpl; eqbs; reflexivity. }
  clearbody m1.
  set (m2 := upd2 m1 y y (m1 y y / m y y)) in E.
  assert (H2 : forall r c, m' r c = if andb (Nat.eqb r y) (andb (Nat.leb h c) (Nat.ltb c w))
     then m2 r c / m y y else m2 r c).
  { intros r c. subst m'.
    destruct (row_loop (w - h) y (fun k => (h + k)%nat) (fun k M => M y (h + k)%nat / m y y)
               (fun k => m2 y (h + k)%nat / m y y) m2 ltac:(intros a b _ _ Hab; cbv beta in Hab; lia)
               ltac:(intros k mm Hk Hm; cbv beta; rewrite Hm; [reflexivity|right; intros; lia]) r c) as [A1 A2].
    destruct (Nat.eqb_spec r y) as [->|Hr]; simpl.
    - destruct (Nat.leb_spec h c); simpl; [destruct (Nat.ltb_spec c w)|].
      + rewrite (A1 (c - h)%nat) by lia. replace (h + (c - h))%nat with c by lia. reflexivity.
      + apply A2. right; intros; lia.
      + apply A2. right; intros; lia.
    - apply A2. left; assumption. }
  intros r c Hr Hc. rewrite H2. unfold m2, upd2. rewrite !H1 by lia.
  eqbs; subst; try congruence; try reflexivity.
Qed.

(** After the rows y..h-1 have been processed. *)
Definition bwd_inv (h w : nat) (m0 : nat -> nat -> R) (k : nat) (m : nat -> nat -> R) : Prop :=
  (forall z, ker h w m z <-> ker h w m0 z) /\
  upper h h m /\
  (forall x, (x < h - k)%nat -> (S x < h)%nat -> m x x <> 0) /\
  (forall r c, (r < h)%nat -> (h - k <= c)%nat -> (c < h)%nat -> m r c = eye r c).

Lemma bwd_step : forall h w m0 k m m',
    (k < h)%nat -> (h < w)%nat -> bwd_inv h w m0 k m ->
    back_step h w (h - 1 - k) m = Ok m' -> bwd_inv h w m0 (S k) m'.
Proof.
  intros h w m0 k m m' Hk Hw (HK & Hu & Hp & He) E.
  set (y := (h - 1 - k)%nat) in *.
  destruct (back_step_spec h w y m m' ltac:(lia) Hw E) as [NZ H]. unfold eye in *.
  split; [|split; [|split]].
  - intro z. rewrite <- HK.
    set (m1 := fun r c => m r c - (if Nat.ltb r y then m r y / m y y else 0) * m y c).
    rewrite <- (ker_pivot h w y (fun r => if Nat.ltb r y then m r y / m y y else 0) m m1 z);
      [|lia|rewrite Nat.ltb_irrefl; reflexivity|intros r c _ _; reflexivity].
    apply ker_scale with (p := y) (c := m y y); [assumption|].
    intros r c Hr Hc. rewrite H by assumption. unfold m1. rewrite ?Nat.ltb_irrefl.
    eqbs; try lra; try (field; assumption).
    + subst r. assert (Z : m y c = 0).
      { destruct (Nat.lt_ge_cases c y); [apply Hu; lia|]. rewrite (He y c) by lia. eqbs; reflexivity. }
      rewrite Z. field; assumption.
    + rewrite (Hu y c) by lia. ring.
  - intros r x Hx Hxr Hr. rewrite H by lia. eqbs; try (apply Hu; lia).
  - intros x Hx Hxh. rewrite H by lia. eqbs; try (apply Hp; lia).
  - intros r c Hr Hc Hch. rewrite H by lia.
    destruct (Nat.eq_dec c y) as [->|Hcy].
    + clearbody y. unfold eye. destruct (Nat.ltb_spec r y); [|destruct (Nat.eqb_spec r y) as [->|]].
      * eqbs. field; assumption.
      * rewrite Nat.eqb_refl. simpl. field; assumption.
      * apply Hu; lia.
    + rewrite (He r c) by lia. rewrite (He y c) by lia. unfold eye; clearbody y; eqbs; subst; try lra; try congruence.
Qed.

Lemma eye_kernel : forall h w m z, (h < w)%nat ->
    (forall r c, (r < h)%nat -> (c < h)%nat -> m r c = eye r c) ->
    (ker h w m z <-> forall r, (r < h)%nat -> z r + rsum (w - h) (fun k => m r (h + k)%nat * z (h + k)%nat) = 0).
Proof.
  intros h w m z Hw He.
  assert (E : forall r, (r < h)%nat -> rsum w (fun j => m r j * z j) =
     z r + rsum (w - h) (fun k => m r (h + k)%nat * z (h + k)%nat)).
  { intros r Hr. replace w with (h + (w - h))%nat at 1 by lia. rewrite rsum_split.
    rewrite (rsum_single h r) by (try assumption; intros j Hj Hne; rewrite He by assumption; unfold eye; eqbs; ring).
    rewrite He by assumption. unfold eye. rewrite Nat.eqb_refl. lra. }
  unfold ker. split; intros K r Hr; specialize (K r Hr); rewrite E in * by assumption; exact K.
Qed.
