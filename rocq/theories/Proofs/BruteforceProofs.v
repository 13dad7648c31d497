(** Product bases, sparse tensors and block Jacobians. *)
From Coq Require Import String Reals List Arith Bool Lia Lra.
From Verif.Base Require Import Prelude Arrays Sums.
From Verif.Spec Require Import LinearAlgebra NewtonStep.
From Verif.Model Require Import DecisionRule TimeIteration LinearSolve ImprovedTimeIteration.
From Verif.Base Require Import Nda.
From Verif.Model Require Import Bruteforce.
From Verif.Spec Require Import Bruteforce.
Import ListNotations.
Open Scope R_scope.
Open Scope list_scope.

(** ** Mixed-radix indices *)

Lemma ix_div : forall a i d, (i < d)%nat -> ((a * d + i) / d)%nat = a.
Proof. intros a i d H. rewrite Nat.div_add_l by lia. rewrite Nat.div_small by lia. lia. Qed.
Lemma ix_mod : forall a i d, (i < d)%nat -> ((a * d + i) mod d)%nat = i.
Proof. intros a i d H. rewrite Nat.add_comm, Nat.mod_add by lia. apply Nat.mod_small. exact H. Qed.

Lemma rsum_prod3 : forall a b c (f : nat -> nat -> nat -> R),
    rsum (a * b * c) (fun k => f (k / (b * c))%nat ((k / c) mod b)%nat (k mod c)%nat)
    = rsum a (fun i => rsum b (fun j => rsum c (fun l => f i j l))).
Proof.
  intros a b c f. destruct (Nat.eq_dec c 0) as [->|Hc].
  { rewrite Nat.mul_0_r. cbn. symmetry. apply rsum_0. intros. apply rsum_0. reflexivity. }
  destruct (Nat.eq_dec b 0) as [->|Hb].
  { rewrite Nat.mul_0_r. cbn. symmetry. apply rsum_0. reflexivity. }
  rewrite (rsum_ext _ _ (fun k => (fun q l => f (q / b)%nat (q mod b)%nat l) (k / c)%nat (k mod c)%nat)).
  - rewrite (rsum_prod (a * b) c (fun q l => f (q / b)%nat (q mod b)%nat l)).
    rewrite (rsum_prod a b (fun i j => rsum c (fun l => f i j l))). reflexivity.
  - intros k _. cbv beta. f_equal. rewrite Nat.div_div by lia. f_equal. lia.
Qed.

Lemma ix3_0 : forall b c i j l, (j < b)%nat -> (l < c)%nat -> (((i * b + j) * c + l) / (b * c))%nat = i.
Proof.
  intros b c i j l Hj Hl. rewrite (Nat.mul_comm b c), <- Nat.div_div by lia. rewrite ix_div by exact Hl. apply ix_div. exact Hj.
Qed.
Lemma ix3_1 : forall b c i j l, (j < b)%nat -> (l < c)%nat -> ((((i * b + j) * c + l) / c) mod b)%nat = j.
Proof. intros b c i j l Hj Hl. rewrite ix_div by exact Hl. apply ix_mod. exact Hj. Qed.

(** ** B_prod *)

(** One entry seen through a loop that only ever writes the value v to it. *)
Lemma fill_obs : forall {P : Type} (obs : P -> R) (c : nat -> bool) (v : R) d (body : nat -> P -> P) z,
    (forall i q, obs (body i q) = if c i then v else obs q) ->
    obs (for_range d body z) = if existsb c (seq 0 d) then v else obs z.
Proof.
  intros P obs c v d body z H. induction d as [|d IH]; [reflexivity|]. cbn [for_range].
  rewrite H, IH, seq_S, existsb_app. cbn [existsb]. rewrite orb_false_r, Nat.add_0_l.
  destruct (existsb c (seq 0 d)), (c d); reflexivity.
Qed.

Lemma fill_obs2 : forall {P : Type} (obs : P -> R) (c : nat -> nat -> bool) (v : R) d e (body : nat -> nat -> P -> P) z,
    (forall i j q, obs (body i j q) = if c i j then v else obs q) ->
    obs (for_range d (fun i q => for_range e (fun j q => body i j q) q) z)
    = if existsb (fun i => existsb (c i) (seq 0 e)) (seq 0 d) then v else obs z.
Proof.
  intros P obs c v d e body z H. apply fill_obs. intros i q. apply fill_obs. intros j q'. apply H.
Qed.

Lemma exists_seq : forall c d k, (k < d)%nat -> c k = true -> existsb c (seq 0 d) = true.
Proof. intros c d k Hk Hc. apply existsb_exists. exists k. split; [apply in_seq; lia|exact Hc]. Qed.
Lemma not_exists_seq : forall c d, (forall k, (k < d)%nat -> c k = false) -> existsb c (seq 0 d) = false.
Proof.
  intros c d H. destruct (existsb c (seq 0 d)) eqn:E; [|reflexivity].
  apply existsb_exists in E. destruct E as (k & Hk & Hc). apply in_seq in Hk. rewrite H in Hc by lia. discriminate.
Qed.

(** The positions written by the slices. *)
Lemma diag_one : forall d i1 i2, (i1 < d)%nat ->
    existsb (fun i => Nat.eqb i1 i && Nat.eqb i2 i) (seq 0 d) = Nat.eqb i1 i2.
Proof.
  intros d i1 i2 H. destruct (Nat.eqb_spec i1 i2) as [->|Hne].
  - apply (exists_seq _ _ i2); [exact H|]. rewrite Nat.eqb_refl. reflexivity.
  - apply not_exists_seq. intros k _. destruct (Nat.eqb_spec i1 k), (Nat.eqb_spec i2 k); cbn; try reflexivity. lia.
Qed.
Lemma diag_two : forall d e i1 j1 i2 j2, (i1 < d)%nat -> (j1 < e)%nat ->
    existsb (fun i => existsb (fun j => (Nat.eqb i1 i && Nat.eqb j1 j) && (Nat.eqb i2 i && Nat.eqb j2 j)) (seq 0 e)) (seq 0 d)
    = Nat.eqb i1 i2 && Nat.eqb j1 j2.
Proof.
  intros d e i1 j1 i2 j2 Hi Hj. destruct (Nat.eqb_spec i1 i2) as [->|Hne]; [destruct (Nat.eqb_spec j1 j2) as [->|Hne]|]; cbn [andb].
  - apply (exists_seq _ _ i2 Hi). apply (exists_seq _ _ j2 Hj). rewrite !Nat.eqb_refl. reflexivity.
  - apply not_exists_seq. intros k _. apply not_exists_seq. intros l _.
    destruct (Nat.eqb_spec j1 l), (Nat.eqb_spec j2 l); rewrite ?andb_false_r; try reflexivity. lia.
  - apply not_exists_seq. intros k _. apply not_exists_seq. intros l _.
    destruct (Nat.eqb_spec i1 k), (Nat.eqb_spec i2 k); cbn [andb]; rewrite ?andb_false_r; try reflexivity. lia.
Qed.

Lemma fill_one : forall d (f : nat -> nat -> R) i1 i2 a b, (i1 < d)%nat ->
    for_range d (fun i (P : nat -> nat -> nat -> nat -> R) a i1 b i2 =>
      if Nat.eqb i1 i && Nat.eqb i2 i then f a b else P a i1 b i2) (fun _ _ _ _ => 0) a i1 b i2
    = if Nat.eqb i1 i2 then f a b else 0.
Proof.
  intros d f i1 i2 a b H.
  rewrite (fill_obs (fun P : nat -> nat -> nat -> nat -> R => P a i1 b i2) (fun i => Nat.eqb i1 i && Nat.eqb i2 i) (f a b)) by reflexivity.
  rewrite diag_one by exact H. reflexivity.
Qed.
Lemma fill_one' : forall d (f : nat -> nat -> R) i1 i2 a b, (i1 < d)%nat ->
    for_range d (fun i (P : nat -> nat -> nat -> nat -> R) i1 a i2 b =>
      if Nat.eqb i1 i && Nat.eqb i2 i then f a b else P i1 a i2 b) (fun _ _ _ _ => 0) i1 a i2 b
    = if Nat.eqb i1 i2 then f a b else 0.
Proof.
  intros d f i1 i2 a b H.
  rewrite (fill_obs (fun P : nat -> nat -> nat -> nat -> R => P i1 a i2 b) (fun i => Nat.eqb i1 i && Nat.eqb i2 i) (f a b)) by reflexivity.
  rewrite diag_one by exact H. reflexivity.
Qed.

Lemma square_entry : forall B a b, square B -> (a < nrow B)%nat -> (b < nrow B)%nat -> entry B a b = mget B a b.
Proof.
  intros B a b HB Ha Hb. unfold entry, square in *. destruct (Nat.eqb_spec (ncol B) 1) as [E|E]; [|reflexivity].
  replace b with 0%nat by lia. reflexivity.
Qed.
Lemma square_fits : forall B, square B -> fits_square B = true.
Proof. intros B H. unfold fits_square. rewrite H, Nat.eqb_refl. reflexivity. Qed.

Lemma b_prod_2_entry : forall Bx By a b i j, square Bx -> square By ->
    (a < nrow Bx)%nat -> (b < nrow Bx)%nat -> (i < nrow By)%nat -> (j < nrow By)%nat ->
    mget (b_prod_2 Bx By) (a * nrow By + i) (b * nrow By + j) = mget Bx a b * mget By i j.
Proof.
  intros Bx By a b i j HX HY Ha Hb Hi Hj. unfold b_prod_2. cbv zeta. cbn [mget].
  rewrite !ix_div, !ix_mod by assumption.
  match goal with |- rsum _ (fun k => ?P a i (k / _)%nat (k mod _)%nat * ?Q (k / _)%nat (k mod _)%nat b j) = _ =>
    rewrite (rsum_prod (nrow Bx) (nrow By) (fun p q => P a i p q * Q p q b j)) end.
  rewrite (rsum_single _ b _ Hb).
  - rewrite (rsum_single _ i _ Hi).
    + rewrite fill_one, fill_one' by assumption. rewrite !Nat.eqb_refl. rewrite !square_entry by assumption. reflexivity.
    + intros q Hq Hne. rewrite fill_one by exact Hi. destruct (Nat.eqb_spec i q); [lia|]. ring.
  - intros p Hp Hne. apply rsum_0. intros q Hq. rewrite fill_one' by exact Hp. destruct (Nat.eqb_spec p b); [lia|]. ring.
Qed.

Definition arr6 := nat -> nat -> nat -> nat -> nat -> nat -> R.

Lemma b_prod_3_entry : forall Bx By Bz a b i j p q, square Bx -> square By -> square Bz ->
    (a < nrow Bx)%nat -> (b < nrow Bx)%nat -> (i < nrow By)%nat -> (j < nrow By)%nat -> (p < nrow Bz)%nat -> (q < nrow Bz)%nat ->
    mget (b_prod_3 Bx By Bz) ((a * nrow By + i) * nrow Bz + p) ((b * nrow By + j) * nrow Bz + q)
    = mget Bx a b * mget By i j * mget Bz p q.
Proof.
  intros Bx By Bz a b i j p q HX HY HZ Ha Hb Hi Hj Hp Hq. unfold b_prod_3. cbv zeta. cbn [mget].
  rewrite !ix3_0, !ix3_1, !ix_mod by assumption.
  set (d0 := nrow Bx) in *. set (d1 := nrow By) in *. set (d2 := nrow Bz) in *.
  match goal with |- rsum _ (fun k => rsum _ (fun k' => ?PX _ _ _ _ _ _ * ?PY _ _ _ _ _ _) * ?PZ _ _ _ _ _ _) = _ =>
    set (X := PX); set (Y := PY); set (Z := PZ) end.
  assert (EX : forall a i p b j q, (i < d1)%nat -> (p < d2)%nat ->
            X a i p b j q = if Nat.eqb i j && Nat.eqb p q then entry Bx a b else 0).
  { intros a' i' p' b' j' q' H1 H2. unfold X.
    rewrite (fill_obs2 (fun P : arr6 => P a' i' p' b' j' q')
      (fun i j => (Nat.eqb i' i && Nat.eqb p' j) && (Nat.eqb j' i && Nat.eqb q' j)) (entry Bx a' b')) by reflexivity.
    rewrite diag_two by assumption. reflexivity. }
  assert (EY : forall a i p b j q, (a < d0)%nat -> (p < d2)%nat ->
            Y a i p b j q = if Nat.eqb a b && Nat.eqb p q then entry By i j else 0).
  { intros a' i' p' b' j' q' H1 H2. unfold Y.
    rewrite (fill_obs2 (fun P : arr6 => P a' i' p' b' j' q')
      (fun i j => (Nat.eqb a' i && Nat.eqb p' j) && (Nat.eqb b' i && Nat.eqb q' j)) (entry By i' j')) by reflexivity.
    rewrite diag_two by assumption. reflexivity. }
  assert (EZ : forall a i p b j q, (a < d0)%nat -> (i < d1)%nat ->
            Z a i p b j q = if Nat.eqb a b && Nat.eqb i j then entry Bz p q else 0).
  { intros a' i' p' b' j' q' H1 H2. unfold Z.
    rewrite (fill_obs2 (fun P : arr6 => P a' i' p' b' j' q')
      (fun i j => (Nat.eqb a' i && Nat.eqb i' j) && (Nat.eqb b' i && Nat.eqb j' j)) (entry Bz p' q')) by reflexivity.
    rewrite diag_two by assumption. reflexivity. }
  clearbody X Y Z.
  assert (EXY : forall b' j' q', (b' < d0)%nat -> (j' < d1)%nat -> (q' < d2)%nat ->
            rsum (d0 * d1 * d2) (fun k => X a i p (k / (d1 * d2))%nat ((k / d2) mod d1)%nat (k mod d2)%nat
                                        * Y (k / (d1 * d2))%nat ((k / d2) mod d1)%nat (k mod d2)%nat b' j' q')
            = if Nat.eqb p q' then entry Bx a b' * entry By i j' else 0).
  { intros b' j' q' H1 H2 H3.
    rewrite (rsum_prod3 d0 d1 d2 (fun x y z => X a i p x y z * Y x y z b' j' q')).
    rewrite (rsum_single _ b' _ H1).
    - rewrite (rsum_single _ i _ Hi).
      + rewrite (rsum_single _ p _ Hp).
        * rewrite EX, EY by assumption. rewrite !Nat.eqb_refl. cbn [andb]. destruct (Nat.eqb p q'); ring.
        * intros z Hz Hne. rewrite EX by assumption. destruct (Nat.eqb_spec p z); [lia|]. rewrite andb_false_r. ring.
      + intros y Hy Hne. apply rsum_0. intros z Hz. rewrite EX by assumption. destruct (Nat.eqb_spec i y); [lia|]. cbn [andb]. ring.
    - intros x Hx Hne. apply rsum_0. intros y Hy. apply rsum_0. intros z Hz. rewrite EY by assumption.
      destruct (Nat.eqb_spec x b'); [lia|]. cbn [andb]. ring. }
  rewrite (rsum_ext _ _ (fun k => (fun x y z => (if Nat.eqb p z then entry Bx a x * entry By i y else 0) * Z x y z b j q)
             (k / (d1 * d2))%nat ((k / d2) mod d1)%nat (k mod d2)%nat)).
  - rewrite (rsum_prod3 d0 d1 d2 (fun x y z => (if Nat.eqb p z then entry Bx a x * entry By i y else 0) * Z x y z b j q)).
    rewrite (rsum_single _ b _ Hb).
    + rewrite (rsum_single _ j _ Hj).
      * rewrite (rsum_single _ p _ Hp).
        -- rewrite EZ by assumption. rewrite !Nat.eqb_refl. cbn [andb]. rewrite !square_entry by assumption. reflexivity.
        -- intros z Hz Hne. destruct (Nat.eqb_spec p z); [lia|]. ring.
      * intros y Hy Hne. apply rsum_0. intros z Hz. rewrite EZ by assumption. destruct (Nat.eqb_spec y j); [lia|]. rewrite andb_false_r. ring.
    + intros x Hx Hne. apply rsum_0. intros y Hy. apply rsum_0. intros z Hz. rewrite EZ by assumption.
      destruct (Nat.eqb_spec x b); [lia|]. cbn [andb]. ring.
  - intros k Hk. cbv beta.
    assert (d2 <> 0)%nat by lia. assert (d1 <> 0)%nat by lia.
    rewrite EXY; [reflexivity| | |].
    + apply Nat.div_lt_upper_bound; nia.
    + apply Nat.mod_upper_bound. assumption.
    + apply Nat.mod_upper_bound. assumption.
Qed.

Lemma kron_dims : forall bs, Forall square bs -> (1 <= length bs <= 3)%nat ->
    exists M, B_prod bs = Ok M /\ nrow M = size (map nrow bs) /\ ncol M = size (map nrow bs) /\
      forall idx jdx, valid idx (map nrow bs) -> valid jdx (map nrow bs) ->
        mget M (ravel (map nrow bs) idx) (ravel (map nrow bs) jdx) = kron_entry bs idx jdx.
Proof.
  intros bs Hsq Hn.
  destruct bs as [|Bx [|By [|Bz [|? ?]]]]; cbn [length] in Hn; try lia.
  - exists Bx. pose proof (Forall_inv Hsq) as H. split; [reflexivity|]. cbn [map size fold_right].
    split; [lia|]. split; [rewrite H; lia|].
    intros idx jdx Hi Hj. inversion Hi as [|i d idx' sh Hi1 Hi2]; subst. inversion Hj as [|j d jdx' sh Hj1 Hj2]; subst.
    inversion Hi2; subst. inversion Hj2; subst. cbn. rewrite !Nat.mul_1_r, !Nat.add_0_r. ring.
  - inversion Hsq as [|? ? H1 Hs]; subst. inversion Hs as [|? ? H2 _]; subst.
    exists (b_prod_2 Bx By). cbn [B_prod]. rewrite !square_fits by assumption. cbn [andb]. split; [reflexivity|].
    cbn [map size fold_right b_prod_2 nrow ncol]. split; [lia|]. split; [lia|].
    intros idx jdx Hi Hj.
    inversion Hi as [|i ? idx' ? Hi1 Hi2]; subst. inversion Hi2 as [|i' ? idx'' ? Hi3 Hi4]; subst. inversion Hi4; subst.
    inversion Hj as [|j ? jdx' ? Hj1 Hj2]; subst. inversion Hj2 as [|j' ? jdx'' ? Hj3 Hj4]; subst. inversion Hj4; subst.
    cbn [ravel kron_entry]. replace (size [nrow By]) with (nrow By) by (cbn; lia). change (size []) with 1%nat.
    rewrite !Nat.mul_1_r, !Nat.add_0_r. rewrite b_prod_2_entry by assumption. ring.
  - inversion Hsq as [|? ? H1 Hs]; subst. inversion Hs as [|? ? H2 Hs']; subst. inversion Hs' as [|? ? H3 _]; subst.
    exists (b_prod_3 Bx By Bz). cbn [B_prod]. rewrite !square_fits by assumption. cbn [andb]. split; [reflexivity|].
    cbn [map size fold_right b_prod_3 nrow ncol]. split; [lia|]. split; [lia|].
    intros idx jdx Hi Hj.
    inversion Hi as [|i ? idx' ? Hi1 Hi2]; subst. inversion Hi2 as [|i' ? idx'' ? Hi3 Hi4]; subst.
    inversion Hi4 as [|i'' ? idx3 ? Hi5 Hi6]; subst. inversion Hi6; subst.
    inversion Hj as [|j ? jdx' ? Hj1 Hj2]; subst. inversion Hj2 as [|j' ? jdx'' ? Hj3 Hj4]; subst.
    inversion Hj4 as [|j'' ? jdx3 ? Hj5 Hj6]; subst. inversion Hj6; subst.
    cbn [ravel kron_entry]. replace (size [nrow Bz]) with (nrow Bz) by (cbn; lia). change (size []) with 1%nat.
    replace (size [nrow By; nrow Bz]) with (nrow By * nrow Bz)%nat by (cbn; lia).
    rewrite !Nat.mul_1_r, !Nat.add_0_r.
    replace (i * (nrow By * nrow Bz) + (i' * nrow Bz + i''))%nat with ((i * nrow By + i') * nrow Bz + i'')%nat by ring.
    replace (j * (nrow By * nrow Bz) + (j' * nrow Bz + j''))%nat with ((j * nrow By + j') * nrow Bz + j'')%nat by ring.
    rewrite b_prod_3_entry by assumption. ring.
Qed.

(** Applying the product to coefficients indexed by the axes of the bases. *)
Lemma kron_apply : forall bs M c idx, Forall square bs -> B_prod bs = Ok M -> valid idx (map nrow bs) ->
    (1 <= length bs <= 3)%nat ->
    rsum (ncol M) (fun k => mget M (ravel (map nrow bs) idx) k * c (unravel (map nrow bs) k))
    = msum (map nrow bs) (fun jdx => kron_entry bs idx jdx * c jdx).
Proof.
  intros bs M c idx Hsq HM Hi Hn. destruct (kron_dims bs Hsq Hn) as (M' & HM' & _ & Hc & He).
  rewrite HM in HM'. injection HM' as <-. rewrite Hc.
  rewrite <- (rsum_unravel (map nrow bs) (fun jdx => kron_entry bs idx jdx * c jdx)).
  apply rsum_ext. intros k Hk. rewrite <- He; [|exact Hi|apply unravel_valid; exact Hk].
  rewrite ravel_unravel by exact Hk. reflexivity.
Qed.

(** ** Sparse tensors *)

Lemma insideb_valid : forall idx sh, insideb idx sh = true <-> valid idx sh.
Proof.
  induction idx as [|i idx IH]; intros [|d sh]; cbn [insideb]; split; intros H; try discriminate; try (inversion H; fail); try (constructor; fail); try reflexivity.
  - apply andb_prop in H. destruct H as (H1 & H2). apply Nat.ltb_lt in H1. constructor; [exact H1|]. apply IH. exact H2.
  - inversion H as [|? ? ? ? H1 H2]; subst. apply Nat.ltb_lt in H1. rewrite H1. cbn. apply IH. exact H2.
Qed.

Lemma map_res_map : forall {A B} (f : A -> res B) (g : A -> B) l, Forall (fun a => f a = Ok (g a)) l -> map_res f l = Ok (map g l).
Proof.
  intros A B f g l H. induction H as [|a l Ha H IH]; [reflexivity|]. cbn [map_res map]. rewrite Ha, IH. reflexivity.
Qed.
Lemma map_res_first_err : forall {A B} (f : A -> res B) e l, (forall a, In a l -> (exists b, f a = Ok b) \/ f a = Err e) ->
    (exists a, In a l /\ f a = Err e) -> map_res f l = Err e.
Proof.
  intros A B f e l. induction l as [|a l IH]; intros H (x & Hx & Hf); [destruct Hx|]. cbn [map_res].
  destruct (H a (or_introl eq_refl)) as [(b & Hb)|Hb]; rewrite Hb; [|reflexivity]. cbn [bind].
  rewrite IH; [reflexivity|intros y Hy; apply H; right; exact Hy|].
  destruct Hx as [->|Hx]; [congruence|]. exists x. split; assumption.
Qed.

Lemma lin_indices_ok : forall t, Forall (fun idx => valid idx (st_shape t)) (st_inds t) ->
    lin_indices t = Ok (map (ravel (st_shape t)) (st_inds t)).
Proof.
  intros t H. unfold lin_indices. apply map_res_map. eapply Forall_impl; [|exact H]. intros idx Hi. cbv beta.
  apply insideb_valid in Hi. rewrite Hi. reflexivity.
Qed.
Lemma lin_indices_err : forall t idx, In idx (st_inds t) -> ~ valid idx (st_shape t) -> lin_indices t = Err ExcValue.
Proof.
  intros t idx Hin Hv. unfold lin_indices. apply map_res_first_err.
  - intros a _. destruct (insideb a (st_shape t)); [left; eexists; reflexivity|right; reflexivity].
  - exists idx. split; [exact Hin|]. destruct (insideb idx (st_shape t)) eqn:E; [|reflexivity].
    apply insideb_valid in E. contradiction.
Qed.

Lemma ravel_inj : forall sh a b, valid a sh -> valid b sh -> ravel sh a = ravel sh b -> a = b.
Proof. intros sh a b Ha Hb H. rewrite <- (unravel_ravel sh a Ha), <- (unravel_ravel sh b Hb), H. reflexivity. Qed.

(** Entries through a change of indices that keeps them distinct. *)
Lemma lsum_reindex : forall (f : list nat -> list nat) inds vals idx idx',
    (forall x, In x inds -> (x = idx <-> f x = idx')) ->
    lsum (map (fun e : list nat * R => if list_eq_dec Nat.eq_dec (fst e) idx' then snd e else 0) (combine (map f inds) vals))
    = lsum (map (fun e : list nat * R => if list_eq_dec Nat.eq_dec (fst e) idx then snd e else 0) (combine inds vals)).
Proof.
  intros f inds. induction inds as [|x inds IH]; intros vals idx idx' H; [reflexivity|].
  destruct vals as [|v vals]; [reflexivity|]. cbn [map combine lsum fst snd].
  rewrite (IH vals idx idx') by (intros y Hy; apply H; right; exact Hy).
  destruct (H x (or_introl eq_refl)) as (H1 & H2).
  destruct (list_eq_dec Nat.eq_dec (f x) idx') as [E|E], (list_eq_dec Nat.eq_dec x idx) as [E'|E']; try reflexivity.
  - elim E'. apply H2. exact E.
  - elim E. apply H1. exact E'.
Qed.

Lemma sp_reshape_ok : forall t sh, well_formed t -> sh <> [] -> st_shape t <> [] -> size sh = size (st_shape t) ->
    exists t', sp_reshape t sh = Ok t' /\ st_shape t' = sh /\ well_formed t' /\
      st_inds t' = map (fun idx => unravel sh (ravel (st_shape t) idx)) (st_inds t) /\ st_vals t' = st_vals t /\
      (forall idx idx', valid idx (st_shape t) -> valid idx' sh -> ravel (st_shape t) idx = ravel sh idx' ->
         stored t' idx' = stored t idx).
Proof.
  intros t sh (Hl & Hv) Hsh Hst Hsz.
  exists (Sparse (map (unravel sh) (map (ravel (st_shape t)) (st_inds t))) (st_vals t) sh).
  unfold sp_reshape. destruct sh as [|d sh]; [contradiction|]. destruct (st_shape t) as [|d' sh'] eqn:Est; [contradiction|].
  rewrite Hsz, Nat.eqb_refl, <- Est. rewrite lin_indices_ok by (rewrite Est; exact Hv). cbn [bind].
  split; [reflexivity|]. split; [reflexivity|]. rewrite <- Est in Hv, Hsz.
  assert (Hlt : forall x, In x (st_inds t) -> (ravel (st_shape t) x < size (d :: sh))%nat).
  { intros x Hx. rewrite Hsz. apply ravel_lt. rewrite Forall_forall in Hv. apply Hv. exact Hx. }
  split; [|split; [|split]].
  - split; cbn [st_inds st_vals st_shape]; [rewrite !map_length; exact Hl|]. rewrite map_map. apply Forall_forall. intros y Hy.
    apply in_map_iff in Hy. destruct Hy as (x & <- & Hx). apply unravel_valid. apply Hlt. exact Hx.
  - cbn [st_inds]. apply map_map.
  - reflexivity.
  - intros idx idx' Hi Hi' Hr. unfold stored. cbn [st_inds st_vals]. rewrite map_map. apply lsum_reindex.
    intros x Hx. split.
    + intros ->. rewrite Hr. apply unravel_ravel. exact Hi'.
    + intros E. apply (ravel_inj (st_shape t)); [rewrite Forall_forall in Hv; apply Hv; exact Hx|exact Hi|].
      rewrite Hr, <- E. symmetry. apply ravel_unravel. apply Hlt. exact Hx.
Qed.

Lemma sp_reshape_size : forall t sh, sh <> [] -> st_shape t <> [] -> size sh <> size (st_shape t) ->
    sp_reshape t sh = Err ExcAssert.
Proof.
  intros t [|d sh] H1 H2 H; [contradiction|]. unfold sp_reshape. destruct (st_shape t); [contradiction|].
  apply Nat.eqb_neq in H. rewrite H. reflexivity.
Qed.
Lemma sp_reshape_outside : forall t sh idx, sh <> [] -> st_shape t <> [] -> size sh = size (st_shape t) ->
    In idx (st_inds t) -> ~ valid idx (st_shape t) -> sp_reshape t sh = Err ExcValue.
Proof.
  intros t [|d sh] idx H1 H2 H Hin Hv; [contradiction|]. unfold sp_reshape. destruct (st_shape t) as [|d' sh'] eqn:E; [contradiction|].
  rewrite H, Nat.eqb_refl. rewrite (lin_indices_err t idx); [reflexivity|exact Hin|rewrite E; exact Hv].
Qed.

(** The array built by scipy. *)
Lemma toarray_entries : forall inds vals r c,
    Forall (fun idx => length idx = 2%nat) inds ->
    fold_right (fun e acc => if Nat.eqb (fst (fst e)) r && Nat.eqb (snd (fst e)) c then snd e + acc else acc) 0
      (combine (map (fun idx => (nth 0 idx 0%nat, nth 1 idx 0%nat)) inds) vals)
    = lsum (map (fun e : list nat * R => if list_eq_dec Nat.eq_dec (fst e) [r; c] then snd e else 0) (combine inds vals)).
Proof.
  intros inds vals r c H. revert vals. induction H as [|x inds Hx H IH]; intros vals; [reflexivity|].
  destruct vals as [|v vals]; [reflexivity|]. cbn [map combine fold_right lsum fst snd]. rewrite IH.
  destruct x as [|x0 [|x1 [|? ?]]]; cbn in Hx; try lia. cbn [nth].
  destruct (list_eq_dec Nat.eq_dec [x0; x1] [r; c]) as [E|E].
  - injection E as -> ->. rewrite !Nat.eqb_refl. reflexivity.
  - destruct (Nat.eqb_spec x0 r) as [->|]; [destruct (Nat.eqb_spec x1 c) as [->|]|]; cbn [andb]; [congruence|lra|lra].
Qed.

Lemma list_max_spec : forall l x, In x l -> (x <= list_max l)%nat.
Proof.
  intros l x Hx. pose proof (proj1 (list_max_le l (list_max l)) (Nat.le_refl _)) as H.
  rewrite Forall_forall in H. apply H. exact Hx.
Qed.

Lemma list_max_in : forall l, l <> [] -> In (list_max l) l.
Proof.
  induction l as [|x l IH]; intros H; [contradiction|]. destruct l as [|y l].
  - left. cbn. lia.
  - change (list_max (x :: y :: l)) with (Nat.max x (list_max (y :: l))).
    destruct (Nat.le_ge_cases x (list_max (y :: l))) as [Hm|Hm].
    + rewrite Nat.max_r by exact Hm. right. apply IH. discriminate.
    + rewrite Nat.max_l by exact Hm. left. reflexivity.
Qed.

Lemma stored_zero : forall t idx, ~ In idx (st_inds t) -> stored t idx = 0.
Proof.
  intros t idx H. unfold stored.
  assert (G : forall inds vals, ~ In idx inds ->
            lsum (map (fun e : list nat * R => if list_eq_dec Nat.eq_dec (fst e) idx then snd e else 0) (combine inds vals)) = 0).
  { induction inds as [|x inds IH]; intros vals Hn; [reflexivity|]. destruct vals as [|v vals]; [reflexivity|].
    cbn [combine map lsum fst snd]. rewrite IH by (intros Hx; apply Hn; right; exact Hx).
    destruct (list_eq_dec Nat.eq_dec x idx) as [E|E]; [elim Hn; left; exact E|lra]. }
  apply G. exact H.
Qed.

Lemma as_array_dims : forall t p q, well_formed t -> st_inds t <> [] -> st_shape t <> [] -> size (st_shape t) = (p * q)%nat ->
    exists M, as_array t (Some [p; q]) = Ok M /\ (nrow M <= p)%nat /\ (ncol M <= q)%nat /\
      (forall idx r c, valid idx (st_shape t) -> (r < p)%nat -> (c < q)%nat -> ravel (st_shape t) idx = (r * q + c)%nat ->
         ((r < nrow M)%nat -> (c < ncol M)%nat -> mget M r c = stored t idx) /\
         ((nrow M <= r)%nat \/ (ncol M <= c)%nat -> ~ In idx (st_inds t))) /\
      (forall idx, In idx (st_inds t) -> (ravel (st_shape t) idx / q < nrow M)%nat /\ (ravel (st_shape t) idx mod q < ncol M)%nat) /\
      (exists idx, In idx (st_inds t) /\ (ravel (st_shape t) idx / q = nrow M - 1)%nat) /\
      (exists idx, In idx (st_inds t) /\ (ravel (st_shape t) idx mod q = ncol M - 1)%nat).
Proof.
  intros t p q Hwf Hne Hst Hsz.
  destruct (sp_reshape_ok t [p; q] Hwf) as (t' & Ht' & Hs' & (Hl' & Hv') & Hi' & Hva & Hst'); [discriminate|exact Hst|cbn; lia|].
  unfold as_array, as_spmatrix. cbn [List.length Nat.eqb bind]. rewrite Ht'. cbn [bind].
  set (ij := map (fun idx => (nth 0 idx 0%nat, nth 1 idx 0%nat)) (st_inds t')).
  assert (Hij : length ij = length (st_vals t')) by (unfold ij; rewrite map_length; exact Hl').
  unfold coo_matrix. rewrite Hij, Nat.eqb_refl.
  assert (Hin : forall idx, In idx (st_inds t) -> In (ravel (st_shape t) idx / q, ravel (st_shape t) idx mod q)%nat ij).
  { intros idx Hx. unfold ij. rewrite Hi'. apply in_map_iff. exists (unravel [p; q] (ravel (st_shape t) idx)). split.
    - cbn [unravel nth]. change (size [q]) with (q * 1)%nat. change (size []) with 1%nat. rewrite Nat.mul_1_r, Nat.div_1_r. reflexivity.
    - apply in_map_iff. exists idx. split; [reflexivity|exact Hx]. }
  assert (Hout : forall a, In a ij -> exists idx, In idx (st_inds t) /\ a = (ravel (st_shape t) idx / q, ravel (st_shape t) idx mod q)%nat).
  { intros a Ha. unfold ij in Ha. rewrite Hi' in Ha. apply in_map_iff in Ha. destruct Ha as (x & <- & Hx).
    apply in_map_iff in Hx. destruct Hx as (idx & <- & Hx). exists idx. split; [exact Hx|].
    cbn [unravel nth]. change (size [q]) with (q * 1)%nat. change (size []) with 1%nat. rewrite Nat.mul_1_r, Nat.div_1_r. reflexivity. }
  destruct Hwf as (Hl & Hv). rewrite Forall_forall in Hv.
  assert (Hb : forall idx, In idx (st_inds t) -> (ravel (st_shape t) idx / q < p)%nat /\ (ravel (st_shape t) idx mod q < q)%nat).
  { intros idx Hx. pose proof (ravel_lt _ _ (Hv _ Hx)) as H. rewrite Hsz in H. assert (q <> 0)%nat by (intros ->; lia).
    split; [apply Nat.div_lt_upper_bound; nia|apply Nat.mod_upper_bound; assumption]. }
  destruct ij as [|a0 ij0] eqn:Eij.
  { destruct (st_inds t) as [|x l]; [contradiction|]. destruct (Hin x (or_introl eq_refl)). }
  cbn [bind]. rewrite <- Eij in *. eexists. split; [reflexivity|]. cbn [toarray nrow ncol mget coo_rows coo_cols coo_entries].
  assert (Hm1 : exists a, In a ij /\ fst a = list_max (map fst ij)).
  { assert (H : In (list_max (map fst ij)) (map fst ij)) by (apply list_max_in; rewrite Eij; discriminate).
    apply in_map_iff in H. destruct H as (a & Ha & Hx). exists a. auto. }
  assert (Hm2 : exists a, In a ij /\ snd a = list_max (map snd ij)).
  { assert (H : In (list_max (map snd ij)) (map snd ij)) by (apply list_max_in; rewrite Eij; discriminate).
    apply in_map_iff in H. destruct H as (a & Ha & Hx). exists a. auto. }
  destruct Hm1 as (a1 & Ha1 & E1). destruct Hm2 as (a2 & Ha2 & E2).
  destruct (Hout a1 Ha1) as (x1 & Hx1 & ->). destruct (Hout a2 Ha2) as (x2 & Hx2 & ->). cbn [fst snd] in E1, E2.
  rewrite <- E1, <- E2. destruct (Hb x1 Hx1) as (Hb1 & _). destruct (Hb x2 Hx2) as (_ & Hb2).
  assert (Hmax : forall idx, In idx (st_inds t) ->
            (ravel (st_shape t) idx / q <= ravel (st_shape t) x1 / q)%nat /\ (ravel (st_shape t) idx mod q <= ravel (st_shape t) x2 mod q)%nat).
  { intros idx Hx. pose proof (Hin idx Hx) as H. rewrite E1, E2. split; apply list_max_spec.
    - apply (in_map fst) in H. exact H.
    - apply (in_map snd) in H. exact H. }
  split; [lia|]. split; [lia|]. split; [|split; [|split]].
  - intros idx r c Hi Hr Hc Hrc. split.
    + intros Hr' Hc'. unfold ij. rewrite toarray_entries.
      * change (stored t' [r; c] = stored t idx). apply Hst'; [exact Hi|repeat constructor; assumption|].
        rewrite Hrc. cbn. lia.
      * eapply Forall_impl; [|exact Hv']. intros y Hy. apply valid_length in Hy. rewrite Hs' in Hy. exact Hy.
    + intros Hr' Hx. destruct (Hmax idx Hx) as (M1 & M2). rewrite Hrc in M1, M2. rewrite ix_div in M1 by exact Hc. rewrite ix_mod in M2 by exact Hc. lia.
  - intros idx Hx. destruct (Hmax idx Hx). lia.
  - exists x1. split; [exact Hx1|lia].
  - exists x2. split; [exact Hx2|lia].
Qed.

Lemma as_array_square : forall t P, st_shape t <> [] -> size (st_shape t) = (P * P)%nat -> as_array t None = as_array t (Some [P; P]).
Proof.
  intros t P H1 H2. unfold as_array, as_spmatrix. destruct (st_shape t) as [|d sh] eqn:E; [contradiction|].
  rewrite H2, Nat.sqrt_square, Nat.eqb_refl. reflexivity.
Qed.
Lemma as_array_not_square : forall t, st_shape t <> [] -> (forall P, size (st_shape t) <> P * P)%nat -> as_array t None = Err ExcAssert.
Proof.
  intros t H1 H2. unfold as_array, as_spmatrix. destruct (st_shape t) as [|d sh] eqn:E; [contradiction|].
  destruct (Nat.eqb_spec (size (d :: sh)) (Nat.sqrt (size (d :: sh)) * Nat.sqrt (size (d :: sh)))) as [H|H]; [|reflexivity].
  elim (H2 _ H).
Qed.

(** ** Block Jacobians *)

Lemma combine_fst_snd : forall {A B} (l : list (A * B)), combine (map fst l) (map snd l) = l.
Proof. induction l as [|[a b] l IH]; cbn; [reflexivity|]. rewrite IH. reflexivity. Qed.

Lemma lsum_map_flat_map : forall {A B} (F : B -> R) (g : A -> list B) l,
    lsum (map F (flat_map g l)) = lsum (map (fun a => lsum (map F (g a))) l).
Proof.
  intros A B F g l. induction l as [|a l IH]; [reflexivity|]. cbn [flat_map map lsum]. rewrite map_app, lsum_app, IH. reflexivity.
Qed.

Lemma rsum_if : forall n k (v : nat -> R), (k < n)%nat -> rsum n (fun i => if Nat.eqb i k then v i else 0) = v k.
Proof.
  intros n k v H. rewrite (rsum_single n k _ H); [rewrite Nat.eqb_refl; reflexivity|].
  intros i _ Hne. apply Nat.eqb_neq in Hne. rewrite Hne. reflexivity.
Qed.

Lemma index_if : forall (idx idx' : list nat) (v : R), length idx = length idx' ->
    (if list_eq_dec Nat.eq_dec idx idx' then v else 0)
    = fold_right (fun p acc => if Nat.eqb (fst p) (snd p) then acc else 0) v (combine idx idx').
Proof.
  induction idx as [|i idx IH]; intros [|j idx'] v H; cbn in H; try lia; [reflexivity|]. cbn [combine fold_right fst snd].
  rewrite <- IH by lia. destruct (list_eq_dec Nat.eq_dec (i :: idx) (j :: idx')) as [E|E].
  - injection E as -> ->. rewrite Nat.eqb_refl. destruct (list_eq_dec Nat.eq_dec idx' idx'); [reflexivity|contradiction].
  - destruct (Nat.eqb_spec i j) as [->|]; [|reflexivity].
    destruct (list_eq_dec Nat.eq_dec idx idx') as [->|]; [contradiction|reflexivity].
Qed.

Lemma rsum_if_pull : forall n (b : bool) (f : nat -> R), rsum n (fun i => if b then f i else 0) = if b then rsum n f else 0.
Proof. intros n [|] f; [reflexivity|]. apply rsum_0. reflexivity. Qed.

Lemma stored_dres : forall n_m N n_x dres t i n k i' n' l,
    dres_to_sparse n_m N n_x n_x dres = Ok t ->
    (i < n_m)%nat -> (n < N)%nat -> (k < n_x)%nat -> (l < n_x)%nat ->
    stored t [i; n; k; i'; n'; l] = if Nat.eqb i i' && Nat.eqb n n' then dres i n k l else 0.
Proof.
  intros n_m N n_x dres t i n k i' n' l Ht Hi Hn Hk Hl. unfold dres_to_sparse in Ht. rewrite Nat.eqb_refl in Ht. injection Ht as <-.
  unfold stored, of_entries. cbn [st_inds st_vals]. rewrite combine_fst_snd, lsum_map_flat_map, lsum_seq.
  rewrite (rsum_ext _ _ (fun a => if Nat.eqb a i then (if Nat.eqb a i' && Nat.eqb n n' then dres a n k l else 0) else 0)).
  { rewrite rsum_if by exact Hi. reflexivity. }
  intros a _. rewrite lsum_map_flat_map, lsum_seq.
  rewrite (rsum_ext _ _ (fun b => if Nat.eqb b n then (if Nat.eqb a i then (if Nat.eqb a i' && Nat.eqb b n' then dres a b k l else 0) else 0) else 0)).
  { rewrite rsum_if by exact Hn. reflexivity. }
  intros b _. rewrite lsum_map_flat_map, lsum_seq.
  rewrite (rsum_ext _ _ (fun c => if Nat.eqb c k then
     (if Nat.eqb b n then (if Nat.eqb a i then (if Nat.eqb a i' && Nat.eqb b n' then dres a b c l else 0) else 0) else 0) else 0)).
  { rewrite rsum_if by exact Hk. reflexivity. }
  intros c _. rewrite map_map, lsum_seq.
  rewrite (rsum_ext _ _ (fun d => if Nat.eqb d l then (if Nat.eqb c k then
     (if Nat.eqb b n then (if Nat.eqb a i then (if Nat.eqb a i' && Nat.eqb b n' then dres a b c d else 0) else 0) else 0) else 0) else 0)).
  { rewrite rsum_if by exact Hl. reflexivity. }
  intros d _. cbn [fst snd]. rewrite index_if by reflexivity. cbn [combine fold_right fst snd].
  destruct (Nat.eqb a i), (Nat.eqb b n), (Nat.eqb c k), (Nat.eqb a i'), (Nat.eqb b n'), (Nat.eqb d l); reflexivity.
Qed.

Lemma stored_jres : forall n_m N n_x jres t i n k i' n' l,
    jres_to_sparse n_m N n_x n_m n_x jres = Ok t ->
    (i < n_m)%nat -> (n < N)%nat -> (k < n_x)%nat -> (i' < n_m)%nat -> (l < n_x)%nat ->
    stored t [i; n; k; i'; n'; l] = if Nat.eqb n n' then jres i n k i' l else 0.
Proof.
  intros n_m N n_x jres t i n k i' n' l Ht Hi Hn Hk Hi' Hl. unfold jres_to_sparse in Ht. rewrite !Nat.eqb_refl in Ht. injection Ht as <-.
  unfold stored, of_entries. cbn [st_inds st_vals]. rewrite combine_fst_snd, lsum_map_flat_map, lsum_seq.
  rewrite (rsum_ext _ _ (fun a => if Nat.eqb a i then (if Nat.eqb n n' then jres a n k i' l else 0) else 0)).
  { rewrite rsum_if by exact Hi. reflexivity. }
  intros a _. rewrite lsum_map_flat_map, lsum_seq.
  rewrite (rsum_ext _ _ (fun b => if Nat.eqb b n then (if Nat.eqb a i then (if Nat.eqb b n' then jres a b k i' l else 0) else 0) else 0)).
  { rewrite rsum_if by exact Hn. reflexivity. }
  intros b _. rewrite lsum_map_flat_map, lsum_seq.
  rewrite (rsum_ext _ _ (fun c => if Nat.eqb c k then
     (if Nat.eqb b n then (if Nat.eqb a i then (if Nat.eqb b n' then jres a b c i' l else 0) else 0) else 0) else 0)).
  { rewrite rsum_if by exact Hk. reflexivity. }
  intros c _. rewrite lsum_map_flat_map, lsum_seq.
  rewrite (rsum_ext _ _ (fun e => if Nat.eqb e i' then (if Nat.eqb c k then
     (if Nat.eqb b n then (if Nat.eqb a i then (if Nat.eqb b n' then jres a b c e l else 0) else 0) else 0) else 0) else 0)).
  { rewrite rsum_if by exact Hi'. reflexivity. }
  intros e _. rewrite map_map, lsum_seq.
  rewrite (rsum_ext _ _ (fun d => if Nat.eqb d l then (if Nat.eqb e i' then (if Nat.eqb c k then
     (if Nat.eqb b n then (if Nat.eqb a i then (if Nat.eqb b n' then jres a b c e d else 0) else 0) else 0) else 0) else 0) else 0)).
  { rewrite rsum_if by exact Hl. reflexivity. }
  intros d _. cbn [fst snd]. rewrite index_if by reflexivity. cbn [combine fold_right fst snd].
  destruct (Nat.eqb a i), (Nat.eqb b n), (Nat.eqb c k), (Nat.eqb e i'), (Nat.eqb b n'), (Nat.eqb d l); reflexivity.
Qed.

Lemma place_lt : forall n_m N n_x i n k, (i < n_m)%nat -> (n < N)%nat -> (k < n_x)%nat -> (place N n_x i n k < n_m * N * n_x)%nat.
Proof. intros. unfold place. assert (i * N + n < n_m * N)%nat by nia. nia. Qed.

(** A tensor with axes (i, n, k, i', n', l) turned into an array, when the last index of both halves is stored. *)
Lemma six_as_array : forall t n_m N n_x, well_formed t -> st_shape t = [n_m; N; n_x; n_m; N; n_x] ->
    (1 <= n_m)%nat -> (1 <= N)%nat -> (1 <= n_x)%nat ->
    In [n_m - 1; N - 1; n_x - 1; n_m - 1; N - 1; n_x - 1]%nat (st_inds t) ->
    exists M, as_array t None = Ok M /\ nrow M = (n_m * N * n_x)%nat /\ ncol M = (n_m * N * n_x)%nat /\
      forall i n k i' n' l, (i < n_m)%nat -> (n < N)%nat -> (k < n_x)%nat -> (i' < n_m)%nat -> (n' < N)%nat -> (l < n_x)%nat ->
        mget M (place N n_x i n k) (place N n_x i' n' l) = stored t [i; n; k; i'; n'; l].
Proof.
  intros t n_m N n_x Hwf Hsh H1 H2 H3 Hlast. set (D := (n_m * N * n_x)%nat).
  assert (Hrav : forall i n k i' n' l, ravel (st_shape t) [i; n; k; i'; n'; l] = (place N n_x i n k * D + place N n_x i' n' l)%nat).
  { intros. rewrite Hsh. unfold place, D. cbn. ring. }
  assert (Hsz : size (st_shape t) = (D * D)%nat) by (rewrite Hsh; unfold D; cbn; ring).
  assert (Hne : st_shape t <> []) by (rewrite Hsh; discriminate).
  rewrite (as_array_square t D Hne Hsz).
  destruct (as_array_dims t D D Hwf) as (M & HM & Hr & Hc & He & Hin & _); [intros E; rewrite E in Hlast; exact Hlast|exact Hne|exact Hsz|].
  exists M. split; [exact HM|].
  assert (HD : (0 < D)%nat) by (unfold D; nia).
  assert (Hp : place N n_x (n_m - 1) (N - 1) (n_x - 1) = (D - 1)%nat).
  { unfold place, D. destruct n_m as [|a]; [lia|]. destruct N as [|b]; [lia|]. destruct n_x as [|c]; [lia|]. cbn [Nat.sub]. rewrite !Nat.sub_0_r. nia. }
  destruct (Hin _ Hlast) as (L1 & L2). rewrite Hrav, Hp in L1, L2. rewrite ix_div in L1 by lia. rewrite ix_mod in L2 by lia.
  assert (Er : nrow M = D) by lia. assert (Ec : ncol M = D) by lia. split; [exact Er|]. split; [exact Ec|].
  intros i n k i' n' l Hi Hn Hk Hi' Hn' Hl.
  pose proof (place_lt n_m N n_x i n k Hi Hn Hk) as P1. pose proof (place_lt n_m N n_x i' n' l Hi' Hn' Hl) as P2. fold D in P1, P2.
  apply He; try lia.
  - rewrite Hsh. repeat constructor; assumption.
  - apply Hrav.
Qed.

Lemma well_formed_entries : forall l sh, Forall (fun e => valid (fst e) sh) l -> well_formed (of_entries l sh).
Proof.
  intros l sh H. split; cbn [of_entries st_inds st_vals st_shape]; [rewrite !map_length; reflexivity|].
  rewrite Forall_map. exact H.
Qed.

Lemma dres_array : forall n_m N n_x dres, (1 <= n_m)%nat -> (1 <= N)%nat -> (1 <= n_x)%nat ->
    exists t M, dres_to_sparse n_m N n_x n_x dres = Ok t /\ as_array t None = Ok M /\
      nrow M = (n_m * N * n_x)%nat /\ ncol M = (n_m * N * n_x)%nat /\
      forall i n k i' n' l, (i < n_m)%nat -> (n < N)%nat -> (k < n_x)%nat -> (i' < n_m)%nat -> (n' < N)%nat -> (l < n_x)%nat ->
        mget M (place N n_x i n k) (place N n_x i' n' l) = if Nat.eqb i i' && Nat.eqb n n' then dres i n k l else 0.
Proof.
  intros n_m N n_x dres H1 H2 H3. destruct (dres_to_sparse n_m N n_x n_x dres) as [t|e] eqn:Et;
    [|unfold dres_to_sparse in Et; rewrite Nat.eqb_refl in Et; discriminate].
  pose proof Et as Et'. unfold dres_to_sparse in Et'. rewrite Nat.eqb_refl in Et'. injection Et' as Et'.
  destruct (six_as_array t n_m N n_x) as (M & HM & Hr & Hc & He); try assumption.
  - rewrite <- Et'. apply well_formed_entries. apply Forall_forall. intros e He.
    repeat (apply in_flat_map in He; destruct He as (? & ? & He)). apply in_map_iff in He. destruct He as (? & <- & He).
    repeat match goal with H : In _ (seq _ _) |- _ => apply in_seq in H end. cbn [fst]. repeat constructor; lia.
  - rewrite <- Et'. reflexivity.
  - rewrite <- Et'. cbn [of_entries st_inds]. apply in_map_iff.
    exists ([n_m - 1; N - 1; n_x - 1; n_m - 1; N - 1; n_x - 1]%nat, dres (n_m - 1)%nat (N - 1)%nat (n_x - 1)%nat (n_x - 1)%nat).
    split; [reflexivity|].
    apply in_flat_map. exists (n_m - 1)%nat. split; [apply in_seq; lia|].
    apply in_flat_map. exists (N - 1)%nat. split; [apply in_seq; lia|].
    apply in_flat_map. exists (n_x - 1)%nat. split; [apply in_seq; lia|].
    apply in_map_iff. exists (n_x - 1)%nat. split; [reflexivity|apply in_seq; lia].
  - exists t, M. split; [reflexivity|]. split; [exact HM|]. split; [exact Hr|]. split; [exact Hc|].
    intros. rewrite He by assumption. apply (stored_dres n_m N n_x); assumption.
Qed.

Lemma jres_array : forall n_m N n_x jres, (1 <= n_m)%nat -> (1 <= N)%nat -> (1 <= n_x)%nat ->
    exists t M, jres_to_sparse n_m N n_x n_m n_x jres = Ok t /\ as_array t None = Ok M /\
      nrow M = (n_m * N * n_x)%nat /\ ncol M = (n_m * N * n_x)%nat /\
      forall i n k i' n' l, (i < n_m)%nat -> (n < N)%nat -> (k < n_x)%nat -> (i' < n_m)%nat -> (n' < N)%nat -> (l < n_x)%nat ->
        mget M (place N n_x i n k) (place N n_x i' n' l) = if Nat.eqb n n' then jres i n k i' l else 0.
Proof.
  intros n_m N n_x jres H1 H2 H3. destruct (jres_to_sparse n_m N n_x n_m n_x jres) as [t|e] eqn:Et;
    [|unfold jres_to_sparse in Et; rewrite !Nat.eqb_refl in Et; discriminate].
  pose proof Et as Et'. unfold jres_to_sparse in Et'. rewrite !Nat.eqb_refl in Et'. injection Et' as Et'.
  destruct (six_as_array t n_m N n_x) as (M & HM & Hr & Hc & He); try assumption.
  - rewrite <- Et'. apply well_formed_entries. apply Forall_forall. intros e He.
    repeat (apply in_flat_map in He; destruct He as (? & ? & He)). apply in_map_iff in He. destruct He as (? & <- & He).
    repeat match goal with H : In _ (seq _ _) |- _ => apply in_seq in H end. cbn [fst]. repeat constructor; lia.
  - rewrite <- Et'. reflexivity.
  - rewrite <- Et'. cbn [of_entries st_inds]. apply in_map_iff.
    exists ([n_m - 1; N - 1; n_x - 1; n_m - 1; N - 1; n_x - 1]%nat, jres (n_m - 1)%nat (N - 1)%nat (n_x - 1)%nat (n_m - 1)%nat (n_x - 1)%nat).
    split; [reflexivity|].
    apply in_flat_map. exists (n_m - 1)%nat. split; [apply in_seq; lia|].
    apply in_flat_map. exists (N - 1)%nat. split; [apply in_seq; lia|].
    apply in_flat_map. exists (n_x - 1)%nat. split; [apply in_seq; lia|].
    apply in_flat_map. exists (n_m - 1)%nat. split; [apply in_seq; lia|].
    apply in_map_iff. exists (n_x - 1)%nat. split; [reflexivity|apply in_seq; lia].
  - exists t, M. split; [reflexivity|]. split; [exact HM|]. split; [exact Hr|]. split; [exact Hc|].
    intros. rewrite He by assumption. apply (stored_jres n_m N n_x); assumption.
Qed.

Lemma flat6_at : forall N n_x P i n k i' n' l, (n < N)%nat -> (k < n_x)%nat -> (n' < N)%nat -> (l < n_x)%nat ->
    flat6 N n_x P (place N n_x i n k) (place N n_x i' n' l) = P i n k i' n' l.
Proof. intros. unfold flat6, place. rewrite !ix3_0, !ix3_1, !ix_mod by assumption. reflexivity. Qed.

Lemma jac_1_entry : forall n_m N n_x dres i n k i' n' l,
    (i < n_m)%nat -> (n < N)%nat -> (k < n_x)%nat -> (n' < N)%nat -> (l < n_x)%nat ->
    mget (jac_1 n_m N n_x dres) (place N n_x i n k) (place N n_x i' n' l) = if Nat.eqb i i' && Nat.eqb n n' then dres i n k l else 0.
Proof.
  intros n_m N n_x dres i n k i' n' l Hi Hn Hk Hn' Hl. unfold jac_1. cbv zeta. cbn [mget]. rewrite flat6_at by assumption.
  rewrite (fill_obs2 (fun P : arr6 => P i n k i' n' l)
      (fun b a => (Nat.eqb n b && Nat.eqb i a) && (Nat.eqb n' b && Nat.eqb i' a)) (dres i n k l)).
  - rewrite diag_two by assumption. rewrite andb_comm. reflexivity.
  - intros b a q. cbv beta. destruct (Nat.eqb_spec i a) as [->|], (Nat.eqb_spec n b) as [->|], (Nat.eqb i' a), (Nat.eqb n' b); reflexivity.
Qed.

Lemma j2_A_entry : forall n_m N n_x jres i n k i' n' l,
    (i < n_m)%nat -> (n < N)%nat -> (k < n_x)%nat -> (n' < N)%nat -> (l < n_x)%nat ->
    mget (j2_A n_m N n_x jres) (place N n_x i n k) (place N n_x i' n' l) = if Nat.eqb n n' then jres i n k i' l else 0.
Proof.
  intros n_m N n_x jres i n k i' n' l Hi Hn Hk Hn' Hl. unfold j2_A. cbv zeta. cbn [mget]. rewrite flat6_at by assumption.
  rewrite (fill_obs (fun P : arr6 => P i n k i' n' l) (fun b => Nat.eqb n b && Nat.eqb n' b) (jres i n k i' l)).
  - rewrite diag_one by assumption. reflexivity.
  - intros b q. cbv beta. destruct (Nat.eqb_spec n b) as [->|]; destruct (Nat.eqb n' b); reflexivity.
Qed.

(** Sums over places. *)
Lemma rsum_place : forall n_m N n_x (f : nat -> R),
    rsum (n_m * N * n_x) f = rsum n_m (fun i => rsum N (fun n => rsum n_x (fun k => f (place N n_x i n k)))).
Proof.
  intros n_m N n_x f. rewrite <- (rsum_prod3 n_m N n_x (fun i n k => f (place N n_x i n k))).
  apply rsum_ext. intros q Hq. f_equal. unfold place.
  assert (n_x <> 0)%nat by (intros ->; lia). assert (N <> 0)%nat by (intros ->; lia).
  pose proof (Nat.div_mod q n_x ltac:(assumption)) as E1.
  pose proof (Nat.div_mod (q / n_x) N ltac:(assumption)) as E2. rewrite Nat.div_div in E2 by assumption.
  rewrite (Nat.mul_comm N n_x). rewrite E1 at 1. rewrite E2 at 1. ring.
Qed.

Lemma block_product_1 : forall n_m N n_x dres (M : nat -> nat -> R) x i n k,
    (forall i' n' l, (i' < n_m)%nat -> (n' < N)%nat -> (l < n_x)%nat ->
       M (place N n_x i n k) (place N n_x i' n' l) = if Nat.eqb i i' && Nat.eqb n n' then dres i n k l else 0) ->
    (i < n_m)%nat -> (n < N)%nat ->
    mat_vec (n_m * N * n_x) M x (place N n_x i n k) = present_effect n_x dres (unflatten N n_x x) i n k.
Proof.
  intros n_m N n_x dres M x i n k H Hi Hn. unfold mat_vec. rewrite rsum_place.
  rewrite (rsum_single _ i _ Hi).
  - rewrite (rsum_single _ n _ Hn).
    + unfold present_effect. apply rsum_ext. intros l Hl. rewrite H by assumption. rewrite !Nat.eqb_refl. reflexivity.
    + intros n' Hn' Hne. apply rsum_0. intros l Hl. rewrite H by assumption. destruct (Nat.eqb_spec n n'); [lia|]. rewrite andb_false_r. ring.
  - intros i' Hi' Hne. apply rsum_0. intros n' Hn'. apply rsum_0. intros l Hl. rewrite H by assumption.
    destruct (Nat.eqb_spec i i'); [lia|]. cbn [andb]. ring.
Qed.

Lemma block_product_2 : forall n_m N n_x jres (M : nat -> nat -> R) x i n k,
    (forall i' n' l, (i' < n_m)%nat -> (n' < N)%nat -> (l < n_x)%nat ->
       M (place N n_x i n k) (place N n_x i' n' l) = if Nat.eqb n n' then jres i n k i' l else 0) ->
    (n < N)%nat ->
    mat_vec (n_m * N * n_x) M x (place N n_x i n k)
    = rsum n_m (fun i' => rsum n_x (fun l => jres i n k i' l * unflatten N n_x x i' n l)).
Proof.
  intros n_m N n_x jres M x i n k H Hn. unfold mat_vec. rewrite rsum_place.
  apply rsum_ext. intros i' Hi'. rewrite (rsum_single _ n _ Hn).
  - apply rsum_ext. intros l Hl. rewrite H by assumption. rewrite Nat.eqb_refl. reflexivity.
  - intros n' Hn' Hne. apply rsum_0. intros l Hl. rewrite H by assumption. destruct (Nat.eqb_spec n n'); [lia|]. ring.
Qed.

(** mult_AB. *)
Lemma mult_AB_spec : forall solve n_m N n_x dres jres out, exact_solver solve ->
    mult_AB solve n_m N n_x dres jres = Ok out ->
    forall i n j v, (i < n_m)%nat -> (n < N)%nat -> (j < n_m)%nat -> (v < n_x)%nat ->
      solves n_x (dres i n) (fun k => jres i n k j v) (fun k => out i n k j v) /\
      (forall y, solves n_x (dres i n) (fun k => jres i n k j v) y -> forall k, (k < n_x)%nat -> y k = out i n k j v).
Proof.
  intros solve n_m N n_x dres jres out Hs H.
  set (good := fun (out : nat -> nat -> nat -> nat -> nat -> R) i j v => forall n, (n < N)%nat ->
      solves n_x (dres i n) (fun k => jres i n k j v) (fun k => out i n k j v) /\
      (forall y, solves n_x (dres i n) (fun k => jres i n k j v) y -> forall k, (k < n_x)%nat -> y k = out i n k j v)).
  cut (forall i j v, (i < n_m)%nat -> (j < n_m)%nat -> (v < n_x)%nat -> good out i j v).
  { intros G i n j v Hi Hn Hj Hv. exact (G i j v Hi Hj Hv n Hn). }
  assert (Hext : forall o1 o2 i j v, (forall n k, o1 i n k j v = o2 i n k j v) -> good o1 i j v -> good o2 i j v).
  { intros o1 o2 i j v E G n Hn. destruct (G n Hn) as (G1 & G2). split.
    - intros q Hq. unfold mat_vec. rewrite <- (G1 q Hq). unfold mat_vec. apply rsum_ext. intros l _. rewrite E. reflexivity.
    - intros y Hy k Hk. rewrite <- E. apply G2; assumption. }
  unfold mult_AB in H.
  refine (for_range_res_inv (fun a o => forall i j v, (i < a)%nat -> (j < n_m)%nat -> (v < n_x)%nat -> good o i j v) n_m _ _ _ _ _ H);
    [intros; lia|]. clear out H. intros a o1 o4 Ha IHa H.
  cut (forall i j v, (i < a)%nat \/ (i = a /\ (j < n_m)%nat) -> (j < n_m)%nat -> (v < n_x)%nat -> good o4 i j v).
  { intros G i j v Hi Hj Hv. apply G; [|exact Hj|exact Hv]. lia. }
  refine (for_range_res_inv (fun b o => forall i j v, (i < a)%nat \/ (i = a /\ (j < b)%nat) -> (j < n_m)%nat -> (v < n_x)%nat -> good o i j v)
            n_m _ _ _ _ _ H); [intros i j v [Hi|(_ & Hi)]; [apply IHa; exact Hi|lia]|].
  clear o4 H. intros b o2 o4 Hb IHb H.
  cut (forall i j v, (i < a)%nat \/ (i = a /\ (j < b)%nat) \/ (i = a /\ j = b /\ (v < n_x)%nat) -> (j < n_m)%nat -> (v < n_x)%nat -> good o4 i j v).
  { intros G i j v Hi Hj Hv. apply G; [|exact Hj|exact Hv]. lia. }
  refine (for_range_res_inv (fun c o => forall i j v, (i < a)%nat \/ (i = a /\ (j < b)%nat) \/ (i = a /\ j = b /\ (v < c)%nat) ->
             (j < n_m)%nat -> (v < n_x)%nat -> good o i j v) n_x _ _ _ _ _ H);
    [intros i j v [Hi|[Hi|(_ & _ & Hi)]]; [apply IHb; left; exact Hi|apply IHb; right; exact Hi|lia]|].
  clear o4 H. intros c o3 o4 Hc IHc H.
  match type of H with bind ?X _ = _ => destruct X as [sol|] eqn:E end; [|discriminate]. cbn [bind] in H. injection H as <-.
  assert (Hsol : forall n, (n < N)%nat ->
            solves n_x (dres a n) (fun k => jres a n k b c) (sol n) /\
            (forall y, solves n_x (dres a n) (fun k => jres a n k b c) y -> forall k, (k < n_x)%nat -> y k = sol n k)).
  { refine (for_range_res_inv (fun m (sol : nat -> nat -> R) => forall n, (n < m)%nat ->
            solves n_x (dres a n) (fun k => jres a n k b c) (sol n) /\
            (forall y, solves n_x (dres a n) (fun k => jres a n k b c) y -> forall k, (k < n_x)%nat -> y k = sol n k)) N _ _ _ _ _ E);
      [intros; lia|]. clear sol E. intros m s1 s2 Hm IH H n Hn.
    destruct (solve n_x (dres a m) (fun k => jres a m k b c)) as [x|] eqn:Ex; [|discriminate]. cbn [bind] in H. injection H as <-.
    destruct (Nat.eq_dec n m) as [->|Hne].
    - rewrite upd_same. apply (Hs _ _ _ _ Ex).
    - rewrite upd_other by exact Hne. apply IH. lia. }
  intros i j v Hi Hj Hv. destruct (Nat.eq_dec i a) as [->|Hia]; [destruct (Nat.eq_dec j b) as [->|Hjb]; [destruct (Nat.eq_dec v c) as [->|Hvc]|]|].
  - intros n Hn. destruct (Hsol n Hn) as (S1 & S2). rewrite !Nat.eqb_refl. cbn [andb]. split.
    + intros q Hq. apply S1. exact Hq.
    + exact S2.
  - apply (Hext o3); [|apply IHc; [lia|assumption|assumption]]. intros n k. apply Nat.eqb_neq in Hvc. rewrite Hvc, andb_false_r. reflexivity.
  - apply (Hext o3); [|apply IHc; [lia|assumption|assumption]]. intros n k. apply Nat.eqb_neq in Hjb. rewrite Hjb, andb_false_r. reflexivity.
  - apply (Hext o3); [|apply IHc; [lia|assumption|assumption]]. intros n k. apply Nat.eqb_neq in Hia. rewrite Hia. reflexivity.
Qed.
