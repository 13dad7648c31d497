(** Entries of the arrays computed by the perturbation code. *)
From Coq Require Import String Reals List Arith Lia Lra.
From Verif.Base Require Import Prelude Sums Arrays Nda.
From Verif.Spec Require Import LinearAlgebra Tensor HigherOrder.
From Verif.Model Require Import Tensor MatrixEquations HigherOrder.
From Verif.Proofs Require Import TensorProofs MatrixEquationsProofs.
Import ListNotations.
Open Scope R_scope.

Definition is1 (a : nda) (n : nat) (F : nat -> R) : Prop :=
  shape a = [n] /\ forall i, (i < n)%nat -> at_ a [i] = F i.
Definition is2 (a : nda) (n m : nat) (F : nat -> nat -> R) : Prop :=
  shape a = [n; m] /\ forall i j, (i < n)%nat -> (j < m)%nat -> at_ a [i; j] = F i j.
Definition is3 (a : nda) (n m p : nat) (F : nat -> nat -> nat -> R) : Prop :=
  shape a = [n; m; p] /\ forall i j k, (i < n)%nat -> (j < m)%nat -> (k < p)%nat -> at_ a [i; j; k] = F i j k.
Definition is4 (a : nda) (n m p q : nat) (F : nat -> nat -> nat -> nat -> R) : Prop :=
  shape a = [n; m; p; q] /\ forall i j k l, (i < n)%nat -> (j < m)%nat -> (k < p)%nat -> (l < q)%nat -> at_ a [i; j; k; l] = F i j k l.

Lemma is1_self : forall a n, shape a = [n] -> is1 a n (fun i => at_ a [i]).
Proof. intros. split; auto. Qed.
Lemma is2_self : forall a n m, shape a = [n; m] -> is2 a n m (fun i j => at_ a [i; j]).
Proof. intros. split; auto. Qed.
Lemma is3_self : forall a n m p, shape a = [n; m; p] -> is3 a n m p (fun i j k => at_ a [i; j; k]).
Proof. intros. split; auto. Qed.
Lemma is4_self : forall a n m p q, shape a = [n; m; p; q] -> is4 a n m p q (fun i j k l => at_ a [i; j; k; l]).
Proof. intros. split; auto. Qed.

(** Slices: start [o] and number of entries [len] on each axis. *)
Definition reads (d : nat) (r : nat * option nat) (o len : nat) : Prop := fst r = o /\ seg d r = len /\ (o + len <= d)%nat.
Lemma reads_all : forall d, reads d all_ 0 d.
Proof. intros. unfold reads, all_, seg. cbn. lia. Qed.
Lemma reads_to : forall d n, (n <= d)%nat -> reads d (to_ n) 0 n.
Proof. intros. unfold reads, to_, seg. cbn. lia. Qed.
Lemma reads_from_to : forall d n m, (n <= m)%nat -> (m <= d)%nat -> reads d (from_to n m) n (m - n).
Proof. intros. unfold reads, from_to, seg. cbn. lia. Qed.
Lemma reads_from : forall d n, (n <= d)%nat -> reads d (from_ n) n (d - n).
Proof. intros. unfold reads, from_, seg. cbn. lia. Qed.

Lemma slice2 : forall a n m F r1 r2 o1 o2 l1 l2, is2 a n m F -> reads n r1 o1 l1 -> reads m r2 o2 l2 ->
    exists T, nd_slice a [r1; r2] = Ok T /\ is2 T l1 l2 (fun i j => F (o1 + i)%nat (o2 + j)%nat).
Proof.
  intros a n m F r1 r2 o1 o2 l1 l2 (Hs & Ha) (E1 & E1' & B1) (E2 & E2' & B2). unfold nd_slice. rewrite Hs. cbn [length Nat.eqb].
  eexists. split; [reflexivity|]. split.
  - cbn. rewrite E1', E2'. reflexivity.
  - intros i j Hi Hj. cbn. rewrite E1, E2. apply Ha; lia.
Qed.
Lemma slice3 : forall a n m p F r1 r2 r3 o1 o2 o3 l1 l2 l3, is3 a n m p F -> reads n r1 o1 l1 -> reads m r2 o2 l2 -> reads p r3 o3 l3 ->
    exists T, nd_slice a [r1; r2; r3] = Ok T /\ is3 T l1 l2 l3 (fun i j k => F (o1 + i)%nat (o2 + j)%nat (o3 + k)%nat).
Proof.
  intros a n m p F r1 r2 r3 o1 o2 o3 l1 l2 l3 (Hs & Ha) (E1 & E1' & B1) (E2 & E2' & B2) (E3 & E3' & B3). unfold nd_slice. rewrite Hs. cbn [length Nat.eqb].
  eexists. split; [reflexivity|]. split.
  - cbn. rewrite E1', E2', E3'. reflexivity.
  - intros i j k Hi Hj Hk. cbn. rewrite E1, E2, E3. apply Ha; lia.
Qed.
Lemma slice4 : forall a n m p q F r1 r2 r3 r4 o1 o2 o3 o4 l1 l2 l3 l4, is4 a n m p q F ->
    reads n r1 o1 l1 -> reads m r2 o2 l2 -> reads p r3 o3 l3 -> reads q r4 o4 l4 ->
    exists T, nd_slice a [r1; r2; r3; r4] = Ok T /\ is4 T l1 l2 l3 l4 (fun i j k l => F (o1 + i)%nat (o2 + j)%nat (o3 + k)%nat (o4 + l)%nat).
Proof.
  intros a n m p q F r1 r2 r3 r4 o1 o2 o3 o4 l1 l2 l3 l4 (Hs & Ha) (E1 & E1' & B1) (E2 & E2' & B2) (E3 & E3' & B3) (E4 & E4' & B4). unfold nd_slice. rewrite Hs. cbn [length Nat.eqb].
  eexists. split; [reflexivity|]. split.
  - cbn. rewrite E1', E2', E3', E4'. reflexivity.
  - intros i j k l Hi Hj Hk Hl. cbn. rewrite E1, E2, E3, E4. apply Ha; lia.
Qed.

Lemma add1 : forall a b n F G, is1 a n F -> is1 b n G -> exists T, nd_add a b = Ok T /\ is1 T n (fun i => F i + G i).
Proof.
  intros a b n F G (Ha & HF) (Hb & HG). unfold nd_add. destruct (list_eq_dec _ _ _) as [_|ne]; [|congruence].
  eexists. split; [reflexivity|]. split; [exact Ha|]. intros. cbn. rewrite HF, HG by assumption. reflexivity.
Qed.
Lemma add2 : forall a b n m F G, is2 a n m F -> is2 b n m G -> exists T, nd_add a b = Ok T /\ is2 T n m (fun i j => F i j + G i j).
Proof.
  intros a b n m F G (Ha & HF) (Hb & HG). unfold nd_add. destruct (list_eq_dec _ _ _) as [_|ne]; [|congruence].
  eexists. split; [reflexivity|]. split; [exact Ha|]. intros. cbn. rewrite HF, HG by assumption. reflexivity.
Qed.
Lemma add3 : forall a b n m p F G, is3 a n m p F -> is3 b n m p G -> exists T, nd_add a b = Ok T /\ is3 T n m p (fun i j k => F i j k + G i j k).
Proof.
  intros a b n m p F G (Ha & HF) (Hb & HG). unfold nd_add. destruct (list_eq_dec _ _ _) as [_|ne]; [|congruence].
  eexists. split; [reflexivity|]. split; [exact Ha|]. intros. cbn. rewrite HF, HG by assumption. reflexivity.
Qed.
Lemma add4 : forall a b n m p q F G, is4 a n m p q F -> is4 b n m p q G ->
    exists T, nd_add a b = Ok T /\ is4 T n m p q (fun i j k l => F i j k l + G i j k l).
Proof.
  intros a b n m p q F G (Ha & HF) (Hb & HG). unfold nd_add. destruct (list_eq_dec _ _ _) as [_|ne]; [|congruence].
  eexists. split; [reflexivity|]. split; [exact Ha|]. intros. cbn. rewrite HF, HG by assumption. reflexivity.
Qed.
Lemma scale2 : forall c a n m F, is2 a n m F -> is2 (nd_scale c a) n m (fun i j => c * F i j).
Proof. intros c a n m F (Ha & HF). split; [exact Ha|]. intros. cbn. rewrite HF by assumption. reflexivity. Qed.
Lemma scale3 : forall c a n m p F, is3 a n m p F -> is3 (nd_scale c a) n m p (fun i j k => c * F i j k).
Proof. intros c a n m p F (Ha & HF). split; [exact Ha|]. intros. cbn. rewrite HF by assumption. reflexivity. Qed.
Lemma scale4 : forall c a n m p q F, is4 a n m p q F -> is4 (nd_scale c a) n m p q (fun i j k l => c * F i j k l).
Proof. intros c a n m p q F (Ha & HF). split; [exact Ha|]. intros. cbn. rewrite HF by assumption. reflexivity. Qed.
Lemma eye2 : forall n, is2 (nd_eye n) n n eye.
Proof. intros n. split; [reflexivity|]. intros. reflexivity. Qed.
Lemma zeros3 : forall n m p, is3 (nd_zeros [n; m; p]) n m p (fun _ _ _ => 0).
Proof. intros. split; [reflexivity|]. intros. reflexivity. Qed.

(** Entries stacked: row i of the first block of n rows, else of the other. *)
Definition above {A} (n : nat) (F G : nat -> A) (i : nat) : A := if Nat.ltb i n then F i else G (i - n)%nat.

Lemma stack_cons : forall a l b T da ta db, l <> [] -> vstack l = Ok b -> shape a = da :: ta -> shape b = db :: ta ->
    vstack (a :: l) = Ok T ->
    shape T = (da + db)%nat :: ta /\
    forall i rest, at_ T (i :: rest) = if Nat.ltb i da then at_ a (i :: rest) else at_ b ((i - da)%nat :: rest).
Proof.
  intros a l b T da ta db Hl Eb Ea Hb H. destruct l as [|c r]; [contradiction|].
  change (vstack (a :: c :: r)) with (bind (vstack (c :: r)) (fun b =>
      match shape a, shape b with
      | da :: ta, db :: tb =>
          if list_eq_dec Nat.eq_dec ta tb
          then Ok (Nda ((da + db)%nat :: ta) (fun idx =>
                 match idx with
                 | i :: rest => if Nat.ltb i da then at_ a idx else at_ b ((i - da)%nat :: rest)
                 | [] => 0
                 end))
          else Err ExcValue
      | _, _ => Err ExcValue
      end)) in H.
  rewrite Eb in H. cbn [bind] in H. rewrite Ea, Hb in H. destruct (list_eq_dec _ _ _) as [_|ne]; [|congruence].
  apply Ok_inj in H. subst T. split; [reflexivity|]. intros. reflexivity.
Qed.
Lemma stack_ok : forall a l b da ta db, l <> [] -> vstack l = Ok b -> shape a = da :: ta -> shape b = db :: ta ->
    exists T, vstack (a :: l) = Ok T.
Proof.
  intros a l b da ta db Hl Eb Ea Hb. destruct l as [|c r]; [contradiction|].
  change (vstack (a :: c :: r)) with (bind (vstack (c :: r)) (fun b =>
      match shape a, shape b with
      | da :: ta, db :: tb =>
          if list_eq_dec Nat.eq_dec ta tb
          then Ok (Nda ((da + db)%nat :: ta) (fun idx =>
                 match idx with
                 | i :: rest => if Nat.ltb i da then at_ a idx else at_ b ((i - da)%nat :: rest)
                 | [] => 0
                 end))
          else Err ExcValue
      | _, _ => Err ExcValue
      end)).
  rewrite Eb. cbn [bind]. rewrite Ea, Hb. destruct (list_eq_dec _ _ _) as [_|ne]; [|congruence]. eexists. reflexivity.
Qed.
Lemma stack1 : forall a l b n m F G, l <> [] -> vstack l = Ok b -> is1 a n F -> is1 b m G ->
    exists T, vstack (a :: l) = Ok T /\ is1 T (n + m) (above n F G).
Proof.
  intros a l b n m F G Hl Eb (Ha & HF) (Hb & HG).
  destruct (stack_ok a l b n [] m Hl Eb Ha Hb) as (T & ET). exists T. split; [exact ET|].
  destruct (stack_cons a l b T n [] m Hl Eb Ha Hb ET) as (Hs & Hv). split; [exact Hs|].
  intros i Hi. rewrite Hv. unfold above. destruct (Nat.ltb_spec i n); [apply HF; lia|apply HG; lia].
Qed.
Lemma stack2 : forall a l b n m p F G, l <> [] -> vstack l = Ok b -> is2 a n p F -> is2 b m p G ->
    exists T, vstack (a :: l) = Ok T /\ is2 T (n + m) p (above n F G).
Proof.
  intros a l b n m p F G Hl Eb (Ha & HF) (Hb & HG).
  destruct (stack_ok a l b n [p] m Hl Eb Ha Hb) as (T & ET). exists T. split; [exact ET|].
  destruct (stack_cons a l b T n [p] m Hl Eb Ha Hb ET) as (Hs & Hv). split; [exact Hs|].
  intros i j Hi Hj. rewrite Hv. unfold above. destruct (Nat.ltb_spec i n); [apply HF; lia|apply HG; lia].
Qed.
Lemma stack3 : forall a l b n m p q F G, l <> [] -> vstack l = Ok b -> is3 a n p q F -> is3 b m p q G ->
    exists T, vstack (a :: l) = Ok T /\ is3 T (n + m) p q (above n F G).
Proof.
  intros a l b n m p q F G Hl Eb (Ha & HF) (Hb & HG).
  destruct (stack_ok a l b n [p; q] m Hl Eb Ha Hb) as (T & ET). exists T. split; [exact ET|].
  destruct (stack_cons a l b T n [p; q] m Hl Eb Ha Hb ET) as (Hs & Hv). split; [exact Hs|].
  intros i j k Hi Hj Hk. rewrite Hv. unfold above. destruct (Nat.ltb_spec i n); [apply HF; lia|apply HG; lia].
Qed.

(** np.dot. *)
Lemma dot22 : forall a b n m p F G, is2 a n m F -> is2 b m p G ->
    exists T, np_dot a b = Ok T /\ is2 T n p (fun i j => rsum m (fun k => F i k * G k j)).
Proof.
  intros a b n m p F G (Ha & HF) (Hb & HG). unfold np_dot. rewrite Ha, Hb. cbn [length Nat.sub nth_error]. rewrite Nat.eqb_refl.
  eexists. split; [reflexivity|]. split; [reflexivity|]. intros i j Hi Hj. cbn. apply rsum_ext. intros k Hk.
  rewrite HF, HG by assumption. reflexivity.
Qed.
(** With an array of rank three it is the middle axis that is contracted. *)
Lemma dot23 : forall a b n m p q F G, is2 a n m F -> is3 b p m q G ->
    exists T, np_dot a b = Ok T /\ is3 T n p q (fun i j k => rsum m (fun l => F i l * G j l k)).
Proof.
  intros a b n m p q F G (Ha & HF) (Hb & HG). unfold np_dot. rewrite Ha, Hb. cbn [length Nat.sub nth_error]. rewrite Nat.eqb_refl.
  eexists. split; [reflexivity|]. split; [reflexivity|]. intros i j k Hi Hj Hk. cbn. apply rsum_ext. intros l Hl.
  rewrite HF, HG by assumption. reflexivity.
Qed.

Lemma valid1 : forall i n, (i < n)%nat -> valid [i] [n].
Proof. intros. repeat constructor; assumption. Qed.
Lemma valid2 : forall i j n m, (i < n)%nat -> (j < m)%nat -> valid [i; j] [n; m].
Proof. intros. repeat constructor; assumption. Qed.
Lemma valid3 : forall i j k n m p, (i < n)%nat -> (j < m)%nat -> (k < p)%nat -> valid [i; j; k] [n; m; p].
Proof. intros. repeat constructor; assumption. Qed.

(** sdot. *)
Lemma sdot_spec : forall U V kept d t, shape U = kept ++ [d] -> shape V = d :: t ->
    exists T, sdot U V = Ok T /\ shape T = kept ++ t /\
      forall a b, valid a kept -> valid b t -> at_ T (a ++ b) = rsum d (fun j => at_ U (a ++ [j]) * at_ V (j :: b)).
Proof.
  intros U V kept d t HU HV. destruct (sdot_contracts U V kept d t HU HV) as (T & E & (Hs & Hv)). exists T. split; [exact E|].
  assert (Hc : concat (map (fun C => skipn 1 (shape C)) [V]) = t) by (cbn; rewrite HV; cbn; apply app_nil_r).
  split; [rewrite Hs, Hc; reflexivity|].
  intros a b Ha Hb. specialize (Hv a [b] Ha). cbn [concat] in Hv. rewrite app_nil_r in Hv. rewrite Hv.
  - cbn. apply rsum_ext. intros j _. ring.
  - constructor; [rewrite HV; exact Hb|constructor].
Qed.
Lemma sdot21 : forall a b n m F G, is2 a n m F -> is1 b m G -> exists T, sdot a b = Ok T /\ is1 T n (fun i => rsum m (fun k => F i k * G k)).
Proof.
  intros a b n m F G (Ha & HF) (Hb & HG). destruct (sdot_spec _ _ [n] m [] Ha Hb) as (T & E & Hs & Hv).
  exists T; split; [exact E|]; split; [exact Hs|]. intros i Hi.
  etransitivity; [exact (Hv [i] [] (valid1 _ _ Hi) (Forall2_nil _))|]. apply rsum_ext. intros k Hk. cbn [app]. rewrite HF, HG by assumption. reflexivity.
Qed.
Lemma sdot23 : forall a b n m p q F G, is2 a n m F -> is3 b m p q G ->
    exists T, sdot a b = Ok T /\ is3 T n p q (fun i j k => rsum m (fun l => F i l * G l j k)).
Proof.
  intros a b n m p q F G (Ha & HF) (Hb & HG). destruct (sdot_spec _ _ [n] m [p; q] Ha Hb) as (T & E & Hs & Hv).
  exists T; split; [exact E|]; split; [exact Hs|]. intros i j k Hi Hj Hk.
  etransitivity; [exact (Hv [i] [j; k] (valid1 _ _ Hi) (valid2 _ _ _ _ Hj Hk))|]. apply rsum_ext. intros l Hl. cbn [app]. rewrite HF, HG by assumption. reflexivity.
Qed.
Lemma sdot24 : forall a b n m p q r F G, is2 a n m F -> is4 b m p q r G ->
    exists T, sdot a b = Ok T /\ is4 T n p q r (fun i j k o => rsum m (fun l => F i l * G l j k o)).
Proof.
  intros a b n m p q r F G (Ha & HF) (Hb & HG). destruct (sdot_spec _ _ [n] m [p; q; r] Ha Hb) as (T & E & Hs & Hv).
  exists T; split; [exact E|]; split; [exact Hs|]. intros i j k o Hi Hj Hk Ho.
  etransitivity; [exact (Hv [i] [j; k; o] (valid1 _ _ Hi) (valid3 _ _ _ _ _ _ Hj Hk Ho))|]. apply rsum_ext. intros l Hl. cbn [app]. rewrite HF, HG by assumption. reflexivity.
Qed.
Lemma sdot31 : forall a b n m p F G, is3 a n m p F -> is1 b p G ->
    exists T, sdot a b = Ok T /\ is2 T n m (fun i j => rsum p (fun l => F i j l * G l)).
Proof.
  intros a b n m p F G (Ha & HF) (Hb & HG). destruct (sdot_spec _ _ [n; m] p [] Ha Hb) as (T & E & Hs & Hv).
  exists T; split; [exact E|]; split; [exact Hs|]. intros i j Hi Hj.
  etransitivity; [exact (Hv [i; j] [] (valid2 _ _ _ _ Hi Hj) (Forall2_nil _))|]. apply rsum_ext. intros l Hl. cbn [app]. rewrite HF, HG by assumption. reflexivity.
Qed.
Lemma sdot32 : forall a b n m p q F G, is3 a n m p F -> is2 b p q G ->
    exists T, sdot a b = Ok T /\ is3 T n m q (fun i j k => rsum p (fun l => F i j l * G l k)).
Proof.
  intros a b n m p q F G (Ha & HF) (Hb & HG). destruct (sdot_spec _ _ [n; m] p [q] Ha Hb) as (T & E & Hs & Hv).
  exists T; split; [exact E|]; split; [exact Hs|]. intros i j k Hi Hj Hk.
  etransitivity; [exact (Hv [i; j] [k] (valid2 _ _ _ _ Hi Hj) (valid1 _ _ Hk))|]. apply rsum_ext. intros l Hl. cbn [app]. rewrite HF, HG by assumption. reflexivity.
Qed.
Lemma sdot33 : forall a b n m p q r F G, is3 a n m p F -> is3 b p q r G ->
    exists T, sdot a b = Ok T /\ is4 T n m q r (fun i j k o => rsum p (fun l => F i j l * G l k o)).
Proof.
  intros a b n m p q r F G (Ha & HF) (Hb & HG). destruct (sdot_spec _ _ [n; m] p [q; r] Ha Hb) as (T & E & Hs & Hv).
  exists T; split; [exact E|]; split; [exact Hs|]. intros i j k o Hi Hj Hk Ho.
  etransitivity; [exact (Hv [i; j] [k; o] (valid2 _ _ _ _ Hi Hj) (valid2 _ _ _ _ Hk Ho))|]. apply rsum_ext. intros l Hl. cbn [app]. rewrite HF, HG by assumption. reflexivity.
Qed.
Lemma sdot42 : forall a b n m p q r F G, is4 a n m p q F -> is2 b q r G ->
    exists T, sdot a b = Ok T /\ is4 T n m p r (fun i j k o => rsum q (fun l => F i j k l * G l o)).
Proof.
  intros a b n m p q r F G (Ha & HF) (Hb & HG). destruct (sdot_spec _ _ [n; m; p] q [r] Ha Hb) as (T & E & Hs & Hv).
  exists T; split; [exact E|]; split; [exact Hs|]. intros i j k o Hi Hj Hk Ho.
  etransitivity; [exact (Hv [i; j; k] [o] (valid3 _ _ _ _ _ _ Hi Hj Hk) (valid1 _ _ Ho))|]. apply rsum_ext. intros l Hl. cbn [app]. rewrite HF, HG by assumption. reflexivity.
Qed.
(** np.dot with a vector is sdot. *)
Lemma dot21 : forall a b n m F G, is2 a n m F -> is1 b m G -> exists T, np_dot a b = Ok T /\ is1 T n (fun i => rsum m (fun k => F i k * G k)).
Proof.
  intros a b n m F G Ha Hb. destruct (sdot21 a b n m F G Ha Hb) as (T & E & H). exists T. split; [|exact H].
  unfold np_dot. rewrite (proj1 Hb). exact E.
Qed.

(** mdot with two and three arrays. *)
Lemma mdot_two : forall M A B kept d1 d2 t1 t2, shape M = kept ++ [d1; d2] -> shape A = d1 :: t1 -> shape B = d2 :: t2 ->
    (length kept + 2 + length t1 + length t2 <= 26)%nat ->
    exists T, mdot M [A; B] = Ok T /\ shape T = kept ++ t1 ++ t2 /\
      forall a b1 b2, valid a kept -> valid b1 t1 -> valid b2 t2 ->
        at_ T (a ++ b1 ++ b2) = rsum d1 (fun j1 => rsum d2 (fun j2 => at_ M (a ++ [j1; j2]) * at_ A (j1 :: b1) * at_ B (j2 :: b2))).
Proof.
  intros M A B kept d1 d2 t1 t2 HM HA HB Hlen.
  assert (HF : fits M [A; B] kept [d1; d2]).
  { split; [exact HM|]. constructor; [exists t1; exact HA|]. constructor; [exists t2; exact HB|constructor]. }
  assert (Hax : (axes_named M [A; B] <= 26)%nat).
  { unfold axes_named. rewrite HM, app_length. cbn. rewrite HA, HB. cbn. lia. }
  destruct (mdot_contracts M [A; B] kept [d1; d2] HF ltac:(cbn; lia) Hax) as (T & E & (Hs & Hv)). exists T. split; [exact E|].
  split; [rewrite Hs; cbn; rewrite HA, HB; cbn; rewrite app_nil_r; reflexivity|].
  intros a b1 b2 Ha Hb1 Hb2. specialize (Hv a [b1; b2] Ha). cbn [concat] in Hv. rewrite app_nil_r in Hv. rewrite Hv.
  - cbn. apply rsum_ext. intros j1 _. apply rsum_ext. intros j2 _. ring.
  - constructor; [rewrite HA; exact Hb1|]. constructor; [rewrite HB; exact Hb2|constructor].
Qed.
Lemma mdot_three : forall M A B C kept d1 d2 d3 t1 t2 t3, shape M = kept ++ [d1; d2; d3] -> shape A = d1 :: t1 -> shape B = d2 :: t2 -> shape C = d3 :: t3 ->
    (length kept + 3 + length t1 + length t2 + length t3 <= 26)%nat ->
    exists T, mdot M [A; B; C] = Ok T /\ shape T = kept ++ t1 ++ t2 ++ t3 /\
      forall a b1 b2 b3, valid a kept -> valid b1 t1 -> valid b2 t2 -> valid b3 t3 ->
        at_ T (a ++ b1 ++ b2 ++ b3) = rsum d1 (fun j1 => rsum d2 (fun j2 => rsum d3 (fun j3 =>
          at_ M (a ++ [j1; j2; j3]) * at_ A (j1 :: b1) * at_ B (j2 :: b2) * at_ C (j3 :: b3)))).
Proof.
  intros M A B C kept d1 d2 d3 t1 t2 t3 HM HA HB HC Hlen.
  assert (HF : fits M [A; B; C] kept [d1; d2; d3]).
  { split; [exact HM|]. constructor; [exists t1; exact HA|]. constructor; [exists t2; exact HB|]. constructor; [exists t3; exact HC|constructor]. }
  assert (Hax : (axes_named M [A; B; C] <= 26)%nat).
  { unfold axes_named. rewrite HM, app_length. cbn. rewrite HA, HB, HC. cbn. lia. }
  destruct (mdot_contracts M [A; B; C] kept [d1; d2; d3] HF ltac:(cbn; lia) Hax) as (T & E & (Hs & Hv)). exists T. split; [exact E|].
  split; [rewrite Hs; cbn; rewrite HA, HB, HC; cbn; rewrite app_nil_r; reflexivity|].
  intros a b1 b2 b3 Ha Hb1 Hb2 Hb3. specialize (Hv a [b1; b2; b3] Ha). cbn [concat] in Hv. rewrite app_nil_r in Hv. rewrite Hv.
  - cbn. apply rsum_ext. intros j1 _. apply rsum_ext. intros j2 _. apply rsum_ext. intros j3 _. ring.
  - constructor; [rewrite HA; exact Hb1|]. constructor; [rewrite HB; exact Hb2|]. constructor; [rewrite HC; exact Hb3|constructor].
Qed.
Lemma mdot322 : forall M A B n d1 d2 m1 m2 F G H, is3 M n d1 d2 F -> is2 A d1 m1 G -> is2 B d2 m2 H ->
    exists T, mdot M [A; B] = Ok T /\ is3 T n m1 m2 (fun i j k => rsum d1 (fun a => rsum d2 (fun b => F i a b * G a j * H b k))).
Proof.
  intros M A B n d1 d2 m1 m2 F G H (HM & HF) (HA & HG) (HB & HH).
  destruct (mdot_two M A B [n] d1 d2 [m1] [m2] HM HA HB ltac:(cbn; lia)) as (T & E & Hs & Hv). exists T. split; [exact E|]. split; [exact Hs|].
  intros i j k Hi Hj Hk. etransitivity; [exact (Hv [i] [j] [k] (valid1 _ _ Hi) (valid1 _ _ Hj) (valid1 _ _ Hk))|].
  apply rsum_ext. intros a Ha. apply rsum_ext. intros b Hb. cbn [app]. rewrite HF, HG, HH by assumption. reflexivity.
Qed.
Lemma mdot321 : forall M A B n d1 d2 m1 F G H, is3 M n d1 d2 F -> is2 A d1 m1 G -> is1 B d2 H ->
    exists T, mdot M [A; B] = Ok T /\ is2 T n m1 (fun i j => rsum d1 (fun a => rsum d2 (fun b => F i a b * G a j * H b))).
Proof.
  intros M A B n d1 d2 m1 F G H (HM & HF) (HA & HG) (HB & HH).
  destruct (mdot_two M A B [n] d1 d2 [m1] [] HM HA HB ltac:(cbn; lia)) as (T & E & Hs & Hv). exists T. split; [exact E|]. split; [exact Hs|].
  intros i j Hi Hj. etransitivity; [exact (Hv [i] [j] [] (valid1 _ _ Hi) (valid1 _ _ Hj) (Forall2_nil _))|].
  apply rsum_ext. intros a Ha. apply rsum_ext. intros b Hb. cbn [app]. rewrite HF, HG, HH by assumption. reflexivity.
Qed.
Lemma mdot323 : forall M A B n d1 d2 m1 m2 m3 F G H, is3 M n d1 d2 F -> is2 A d1 m1 G -> is3 B d2 m2 m3 H ->
    exists T, mdot M [A; B] = Ok T /\ is4 T n m1 m2 m3 (fun i j k l => rsum d1 (fun a => rsum d2 (fun b => F i a b * G a j * H b k l))).
Proof.
  intros M A B n d1 d2 m1 m2 m3 F G H (HM & HF) (HA & HG) (HB & HH).
  destruct (mdot_two M A B [n] d1 d2 [m1] [m2; m3] HM HA HB ltac:(cbn; lia)) as (T & E & Hs & Hv). exists T. split; [exact E|]. split; [exact Hs|].
  intros i j k l Hi Hj Hk Hl. etransitivity; [exact (Hv [i] [j] [k; l] (valid1 _ _ Hi) (valid1 _ _ Hj) (valid2 _ _ _ _ Hk Hl))|].
  apply rsum_ext. intros a Ha. apply rsum_ext. intros b Hb. cbn [app]. rewrite HF, HG, HH by assumption. reflexivity.
Qed.
Lemma mdot332 : forall M A B n d1 d2 m1 m2 m3 F G H, is3 M n d1 d2 F -> is3 A d1 m1 m2 G -> is2 B d2 m3 H ->
    exists T, mdot M [A; B] = Ok T /\ is4 T n m1 m2 m3 (fun i j k l => rsum d1 (fun a => rsum d2 (fun b => F i a b * G a j k * H b l))).
Proof.
  intros M A B n d1 d2 m1 m2 m3 F G H (HM & HF) (HA & HG) (HB & HH).
  destruct (mdot_two M A B [n] d1 d2 [m1; m2] [m3] HM HA HB ltac:(cbn; lia)) as (T & E & Hs & Hv). exists T. split; [exact E|]. split; [exact Hs|].
  intros i j k l Hi Hj Hk Hl. etransitivity; [exact (Hv [i] [j; k] [l] (valid1 _ _ Hi) (valid2 _ _ _ _ Hj Hk) (valid1 _ _ Hl))|].
  apply rsum_ext. intros a Ha. apply rsum_ext. intros b Hb. cbn [app]. rewrite HF, HG, HH by assumption. reflexivity.
Qed.
Lemma mdot422 : forall M A B n p d1 d2 m1 m2 F G H, is4 M n p d1 d2 F -> is2 A d1 m1 G -> is2 B d2 m2 H ->
    exists T, mdot M [A; B] = Ok T /\ is4 T n p m1 m2 (fun i o j k => rsum d1 (fun a => rsum d2 (fun b => F i o a b * G a j * H b k))).
Proof.
  intros M A B n p d1 d2 m1 m2 F G H (HM & HF) (HA & HG) (HB & HH).
  destruct (mdot_two M A B [n; p] d1 d2 [m1] [m2] HM HA HB ltac:(cbn; lia)) as (T & E & Hs & Hv). exists T. split; [exact E|]. split; [exact Hs|].
  intros i o j k Hi Ho Hj Hk. etransitivity; [exact (Hv [i; o] [j] [k] (valid2 _ _ _ _ Hi Ho) (valid1 _ _ Hj) (valid1 _ _ Hk))|].
  apply rsum_ext. intros a Ha. apply rsum_ext. intros b Hb. cbn [app]. rewrite HF, HG, HH by assumption. reflexivity.
Qed.
Lemma mdot4222 : forall M A B C n d1 d2 d3 m1 m2 m3 F G H K, is4 M n d1 d2 d3 F -> is2 A d1 m1 G -> is2 B d2 m2 H -> is2 C d3 m3 K ->
    exists T, mdot M [A; B; C] = Ok T /\
      is4 T n m1 m2 m3 (fun i j k l => rsum d1 (fun a => rsum d2 (fun b => rsum d3 (fun c => F i a b c * G a j * H b k * K c l)))).
Proof.
  intros M A B C n d1 d2 d3 m1 m2 m3 F G H K (HM & HF) (HA & HG) (HB & HH) (HC & HK).
  destruct (mdot_three M A B C [n] d1 d2 d3 [m1] [m2] [m3] HM HA HB HC ltac:(cbn; lia)) as (T & E & Hs & Hv). exists T. split; [exact E|]. split; [exact Hs|].
  intros i j k l Hi Hj Hk Hl. etransitivity; [exact (Hv [i] [j] [k] [l] (valid1 _ _ Hi) (valid1 _ _ Hj) (valid1 _ _ Hk) (valid1 _ _ Hl))|].
  apply rsum_ext. intros a Ha. apply rsum_ext. intros b Hb. apply rsum_ext. intros c Hc. cbn [app]. rewrite HF, HG, HH, HK by assumption. reflexivity.
Qed.

(** E(.), contraction with the covariance. *)
Lemma against3 : forall a s n d F G, is3 a n d d F -> is2 s d d G ->
    exists T, against a s = Ok T /\ is1 T n (fun i => rsum d (fun j => rsum d (fun k => F i j k * G j k))).
Proof.
  intros a s n d F G (Ha & HF) (Hs & HG). unfold against. rewrite Ha, Hs. cbn [length Nat.sub skipn firstn].
  destruct (list_eq_dec _ _ _) as [_|ne]; [|congruence]. eexists. split; [reflexivity|]. split; [reflexivity|].
  intros i Hi. cbn. apply rsum_ext. intros j Hj. apply rsum_ext. intros k Hk. rewrite HF, HG by assumption. reflexivity.
Qed.
Lemma against4 : forall a s n m d F G, is4 a n m d d F -> is2 s d d G ->
    exists T, against a s = Ok T /\ is2 T n m (fun i o => rsum d (fun j => rsum d (fun k => F i o j k * G j k))).
Proof.
  intros a s n m d F G (Ha & HF) (Hs & HG). unfold against. rewrite Ha, Hs. cbn [length Nat.sub skipn firstn].
  destruct (list_eq_dec _ _ _) as [_|ne]; [|congruence]. eexists. split; [reflexivity|]. split; [reflexivity|].
  intros i o Hi Ho. cbn. apply rsum_ext. intros j Hj. apply rsum_ext. intros k Hk. rewrite HF, HG by assumption. reflexivity.
Qed.

(** solve_sylvester. *)
Lemma to_mat_dims : forall a n m F, is2 a n m F -> nrow (to_mat a) = n /\ ncol (to_mat a) = m.
Proof. intros a n m F (Ha & _). unfold to_mat. cbn. rewrite Ha. split; reflexivity. Qed.
Lemma to_mat_get : forall a i j, mget (to_mat a) i j = at_ a [i; j].
Proof. reflexivity. Qed.

Lemma sylvester3 : forall solve A B C D n v FA FB FC FD X, exact_solver solve -> (1 <= v)%nat ->
    is2 A n n FA -> is2 B n n FB -> is2 C v v FC -> is3 D n v v FD ->
    solve_sylvester solve (to_mat A) (to_mat B) (to_mat C) D = Ok X ->
    is3 X n v v (fun i j k => at_ X [i; j; k]) /\
    forall i j k, (i < n)%nat -> (j < v)%nat -> (k < v)%nat ->
      rsum n (fun c => FA i c * at_ X [c; j; k])
      + rsum n (fun c => FB i c * rsum v (fun l1 => rsum v (fun l2 => at_ X [c; l1; l2] * FC l1 j * FC l2 k)))
      + FD i j k = 0.
Proof.
  intros solve A B C D n v FA FB FC FD X HE Hv HA HB HC (HD & HFD) H.
  destruct (sylvester_solves solve (to_mat A) (to_mat B) (to_mat C) D n v 2 (to_mat_dims _ _ _ _ HA) (to_mat_dims _ _ _ _ HB)
              (to_mat_dims _ _ _ _ HC) HD ltac:(lia) Hv HE X H) as (Hs & HX).
  split; [apply is3_self; rewrite Hs; exact HD|].
  intros i j k Hi Hj Hk. specialize (HX i [j; k] Hi ltac:(repeat constructor; assumption)). rewrite HFD in HX by assumption.
  rewrite <- HX. f_equal. f_equal.
  - apply rsum_ext. intros c Hc. rewrite to_mat_get, (proj2 HA) by assumption. reflexivity.
  - apply rsum_ext. intros c Hc. rewrite to_mat_get, (proj2 HB) by assumption. f_equal. cbn.
    apply rsum_ext. intros l1 Hl1. apply rsum_ext. intros l2 Hl2. rewrite !(proj2 HC) by assumption. ring.
Qed.
Lemma sylvester2 : forall solve A B C D n v FA FB FC FD X, exact_solver solve -> (1 <= v)%nat ->
    is2 A n n FA -> is2 B n n FB -> is2 C v v FC -> is2 D n v FD ->
    solve_sylvester solve (to_mat A) (to_mat B) (to_mat C) D = Ok X ->
    is2 X n v (fun i j => at_ X [i; j]) /\
    forall i j, (i < n)%nat -> (j < v)%nat ->
      rsum n (fun c => FA i c * at_ X [c; j])
      + rsum n (fun c => FB i c * rsum v (fun l1 => at_ X [c; l1] * FC l1 j))
      + FD i j = 0.
Proof.
  intros solve A B C D n v FA FB FC FD X HE Hv HA HB HC (HD & HFD) H.
  destruct (sylvester_solves solve (to_mat A) (to_mat B) (to_mat C) D n v 1 (to_mat_dims _ _ _ _ HA) (to_mat_dims _ _ _ _ HB)
              (to_mat_dims _ _ _ _ HC) HD ltac:(lia) Hv HE X H) as (Hs & HX).
  split; [apply is2_self; rewrite Hs; exact HD|].
  intros i j Hi Hj. specialize (HX i [j] Hi ltac:(repeat constructor; assumption)). rewrite HFD in HX by assumption.
  rewrite <- HX. f_equal. f_equal.
  - apply rsum_ext. intros c Hc. rewrite to_mat_get, (proj2 HA) by assumption. reflexivity.
  - apply rsum_ext. intros c Hc. rewrite to_mat_get, (proj2 HB) by assumption. f_equal. cbn.
    apply rsum_ext. intros l1 Hl1. rewrite !(proj2 HC) by assumption. ring.
Qed.
Lemma sylvester4 : forall solve A B C D n v FA FB FC FD X, exact_solver solve -> (1 <= v)%nat ->
    is2 A n n FA -> is2 B n n FB -> is2 C v v FC -> is4 D n v v v FD ->
    solve_sylvester solve (to_mat A) (to_mat B) (to_mat C) D = Ok X ->
    is4 X n v v v (fun i j k l => at_ X [i; j; k; l]) /\
    forall i j k l, (i < n)%nat -> (j < v)%nat -> (k < v)%nat -> (l < v)%nat ->
      rsum n (fun c => FA i c * at_ X [c; j; k; l])
      + rsum n (fun c => FB i c * rsum v (fun l1 => rsum v (fun l2 => rsum v (fun l3 => at_ X [c; l1; l2; l3] * FC l1 j * FC l2 k * FC l3 l))))
      + FD i j k l = 0.
Proof.
  intros solve A B C D n v FA FB FC FD X HE Hv HA HB HC (HD & HFD) H.
  destruct (sylvester_solves solve (to_mat A) (to_mat B) (to_mat C) D n v 3 (to_mat_dims _ _ _ _ HA) (to_mat_dims _ _ _ _ HB)
              (to_mat_dims _ _ _ _ HC) HD ltac:(lia) Hv HE X H) as (Hs & HX).
  split; [apply is4_self; rewrite Hs; exact HD|].
  intros i j k l Hi Hj Hk Hl. specialize (HX i [j; k; l] Hi ltac:(repeat constructor; assumption)). rewrite HFD in HX by assumption.
  rewrite <- HX. f_equal. f_equal.
  - apply rsum_ext. intros c Hc. rewrite to_mat_get, (proj2 HA) by assumption. reflexivity.
  - apply rsum_ext. intros c Hc. rewrite to_mat_get, (proj2 HB) by assumption. f_equal. cbn.
    apply rsum_ext. intros l1 Hl1. apply rsum_ext. intros l2 Hl2. apply rsum_ext. intros l3 Hl3. rewrite !(proj2 HC) by assumption. ring.
Qed.
