(** Draws and simulations: proofs for C126, C127 and C128. *)
From Coq Require Import String Reals List Arith Bool Lia Lra.
From Verif.Base Require Import Prelude Sums Arrays Nda.
From Verif.Spec Require Import Law Markov Sampling.
From Verif.Model Require Import Discretization Grids Distributions Processes Sampling.
From Verif.Proofs Require Import ProcessProofs.
Import ListNotations.
Open Scope R_scope.
Open Scope list_scope.

Section DistInd.
  Variable P : dist -> Prop.
  Hypothesis HE : forall p, P (DEqui p).
  Hypothesis HF : forall p w, P (DFinite p w).
  Hypothesis HB : forall p, P (DBernouilli p).
  Hypothesis HU : forall s m, P (DUNormal s m).
  Hypothesis HI : forall a b, P (DUniform a b).
  Hypothesis HN : forall Sg m, P (DNormal Sg m).
  Hypothesis HP : forall l, every P l -> P (DProduct l).
  Hypothesis HD : P DNoDraw.
  Fixpoint dist_ind2 (x : dist) : P x :=
    match x with
    | DEqui p => HE p
    | DFinite p w => HF p w
    | DBernouilli p => HB p
    | DUNormal s m => HU s m
    | DUniform a b => HI a b
    | DNormal Sg m => HN Sg m
    | DProduct l => HP l ((fix all (l : list dist) : every P l :=
                             match l with [] => I | y :: l' => conj (dist_ind2 y) (all l') end) l)
    | DNoDraw => HD
    end.
End DistInd.

Section ProcInd.
  Variable P : proc -> Prop.
  Hypothesis H1 : forall x n, P (PIid x n).
  Hypothesis H2 : forall m, P (PConstant m).
  Hypothesis H3 : forall c, P (PChain c).
  Hypothesis H4 : forall p, P (PVar1 p).
  Hypothesis H5 : forall a b c, P (PAr1 a b c).
  Hypothesis H6 : forall l, every P l -> P (PProduct l).
  Fixpoint proc_ind2 (x : proc) : P x :=
    match x with
    | PIid x n => H1 x n
    | PConstant m => H2 m
    | PChain c => H3 c
    | PVar1 p => H4 p
    | PAr1 a b c => H5 a b c
    | PProduct l => H6 l ((fix all (l : list proc) : every P l :=
                             match l with [] => I | y :: l' => conj (proc_ind2 y) (all l') end) l)
    end.
End ProcInd.

Lemma all_have_d : forall l, (forall pi, ~ In (DBernouilli pi) l) -> forallb has_d l = true.
Proof.
  intros l H. apply forallb_forall. intros x Hx. destruct x; try reflexivity. destruct (H _ Hx).
Qed.
Lemma all_procs_have_d : forall l, (forall pi names, ~ In (PIid (DBernouilli pi) names) l) -> forallb proc_has_d l = true.
Proof.
  intros l H. apply forallb_forall. intros x Hx. destruct x as [y n| | | | |]; try reflexivity.
  destruct y; try reflexivity. destruct (H _ _ Hx).
Qed.
Lemma every_in : forall A (P : A -> Prop) l, every P l -> forall y, In y l -> P y.
Proof. intros A P l. induction l as [|z l IH]; cbn; [tauto|]. intros [H1 H2] y [<-|Hy]; auto. Qed.
Lemma in_every : forall A (P : A -> Prop) l, (forall y, In y l -> P y) -> every P l.
Proof. intros A P l. induction l as [|z l IH]; cbn; intros H; [exact I|]. split; [apply H; auto|]. apply IH. auto. Qed.
Lemma some_in : forall A (P : A -> Prop) l, some P l -> exists y, In y l /\ P y.
Proof.
  intros A P l. induction l as [|z l IH]; cbn; [tauto|]. intros [H|H]; [exists z; auto|].
  destruct (IH H) as (y & H1 & H2). exists y; auto.
Qed.

Section Draw.
  Variable rng : Type.
  Variable uniforms : nat -> rng -> (nat -> R) * rng.
  Variable integers : nat -> nat -> rng -> (nat -> nat) * rng.
  Variable normals : vec -> mat -> nat -> rng -> (nat -> nat -> R) * rng.
  Variable pyrand : nat -> rng -> (nat -> R) * rng.
  Notation draw := (draw rng uniforms integers normals).
  Notation simulate := (simulate rng uniforms integers normals pyrand).
  Notation in_turn := (in_turn rng).

  Lemma in_turn_iff : forall A B (f : A -> rng -> res B * rng) l r bs r',
      in_turn f l r = (Ok bs, r') <-> each_in_turn f l r bs r'.
  Proof.
    intros A B f l. induction l as [|y l IH]; intros r bs r'; cbn [Sampling.in_turn].
    - split; intros H; inversion H; subst; constructor.
    - fold (@Sampling.in_turn rng A B f). split.
      + destruct (f y r) as [[b|e] r1] eqn:E; [|discriminate].
        destruct (in_turn f l r1) as [[cs|e] r2] eqn:E2; [|discriminate]. intros H. inversion H; subst.
        econstructor; [exact E|]. apply IH. exact E2.
      + intros H. inversion H as [|y0 l0 r0 b r1 cs r2 E E2]; subst. rewrite E. apply IH in E2. rewrite E2. reflexivity.
  Qed.

  Lemma in_turn_ok : forall A B (f : A -> rng -> res B * rng) (Q : A -> B -> Prop) l,
      (forall y r, In y l -> exists b r1, f y r = (Ok b, r1) /\ Q y b) ->
      forall r, exists bs r', in_turn f l r = (Ok bs, r') /\ Forall2 Q l bs.
  Proof.
    intros A B f Q l. induction l as [|y l IH]; intros H r.
    - exists [], r. split; [reflexivity|constructor].
    - destruct (H y r) as (b & r1 & E & Hb); [left; reflexivity|].
      destruct (IH (fun z r Hz => H z r (or_intror Hz)) r1) as (bs & r2 & E2 & Hbs).
      exists (b :: bs), r2. split; [|constructor; assumption].
      cbn [Sampling.in_turn]. fold (@Sampling.in_turn rng A B f). rewrite E, E2. reflexivity.
  Qed.

  Lemma in_turn_err : forall A B (f : A -> rng -> res B * rng) l y,
      In y l -> (forall r, exists e, fst (f y r) = Err e) -> forall r, exists e, fst (in_turn f l r) = Err e.
  Proof.
    intros A B f l. induction l as [|z l IH]; intros y Hy Hf r; [destruct Hy|].
    cbn [Sampling.in_turn]. fold (@Sampling.in_turn rng A B f). destruct Hy as [->|Hy].
    - destruct (Hf r) as (e & E). destruct (f y r) as [[b|e'] r1]; cbn [fst] in E; [discriminate|]. exists e'. reflexivity.
    - destruct (f z r) as [[b|e'] r1]; [|exists e'; reflexivity].
      destruct (IH y Hy Hf r1) as (e & E).
      destruct (in_turn f l r1) as [[cs|e'] r2]; cbn [fst] in *; [discriminate|]. exists e'. reflexivity.
  Qed.

  Lemma hstack_block : forall l i k j ds,
      map (fun a => nth 1 (shape a) 0%nat) l = ds -> (i < List.length l)%nat -> (j < nth i ds 0)%nat ->
      hstack_cols l k (offset ds i + j) = at_ (nth i l (Nda [] (fun _ => 0))) [k; j].
  Proof.
    induction l as [|a l IH]; intros i k j ds E Hi Hj; [cbn in Hi; lia|].
    subst ds. cbn [map] in *. cbn [hstack_cols]. destruct i as [|i].
    - cbn [nth firstn offset] in *. unfold offset. cbn [firstn fold_right].
      cbn [Nat.add]. destruct (Nat.ltb_spec j (nth 1 (shape a) 0%nat)); [reflexivity|lia].
    - unfold offset. cbn [firstn fold_right nth] in *. fold (offset (map (fun a => nth 1 (shape a) 0%nat) l) i).
      destruct (Nat.ltb_spec (nth 1 (shape a) 0%nat + offset (map (fun a => nth 1 (shape a) 0%nat) l) i + j) (nth 1 (shape a) 0%nat)); [lia|].
      replace (nth 1 (shape a) 0%nat + offset (map (fun a => nth 1 (shape a) 0%nat) l) i + j - nth 1 (shape a) 0%nat)%nat
        with (offset (map (fun a => nth 1 (shape a) 0%nat) l) i + j)%nat by lia.
      apply IH; [reflexivity|cbn in Hi; lia|exact Hj].
  Qed.

  Lemma panel_block : forall l i t n j ds,
      map pa_d l = ds -> (i < List.length l)%nat -> (j < nth i ds 0)%nat ->
      panel_cols l t n (offset ds i + j) = pa_at (nth i l (Panel 0 0 0 (fun _ _ _ => 0))) t n j.
  Proof.
    induction l as [|a l IH]; intros i t n j ds E Hi Hj; [cbn in Hi; lia|].
    subst ds. cbn [map] in *. cbn [panel_cols]. destruct i as [|i].
    - unfold offset. cbn [nth firstn fold_right] in *.
      cbn [Nat.add]. destruct (Nat.ltb_spec j (pa_d a)); [reflexivity|lia].
    - unfold offset. cbn [firstn fold_right nth] in *. fold (offset (map pa_d l) i).
      destruct (Nat.ltb_spec (pa_d a + offset (map pa_d l) i + j) (pa_d a)); [lia|].
      replace (pa_d a + offset (map pa_d l) i + j - pa_d a)%nat with (offset (map pa_d l) i + j)%nat by lia.
      apply IH; [reflexivity|cbn in Hi; lia|exact Hj].
  Qed.

  Lemma forallb_rows : forall N l, Forall (fun a => exists d, shape a = [N; d]) l -> forallb (rows_are N) l = true.
  Proof.
    intros N l H. apply forallb_forall. intros a Ha. rewrite Forall_forall in H. destruct (H a Ha) as (d & E).
    unfold rows_are. rewrite E. apply Nat.eqb_refl.
  Qed.

  (** The multivariate normal. *)
  Lemma draw_normal : forall Sg m N r, (1 <= nrow Sg)%nat -> N <> 1%nat ->
      exists a, draw (DNormal Sg m) N r = (Ok a, snd (normals m Sg N r)) /\ shape a = [N; nrow Sg] /\
        forall k j, (k < N)%nat -> (j < nrow Sg)%nat -> at_ a [k; j] = fst (normals m Sg N r) k j.
  Proof.
    intros Sg m N r Hd HN. cbn [Sampling.draw]. destruct (normals m Sg N r) as [z r']. cbn [fst snd].
    unfold squeeze, nda_of. cbn [shape at_ filter].
    destruct (Nat.eqb_spec N 1) as [|_]; [contradiction|]. cbn [negb].
    destruct (Nat.eqb_spec (nrow Sg) 1) as [E|E]; cbn [negb].
    - eexists. split; [reflexivity|]. cbn [shape at_]. rewrite E. split; [reflexivity|].
      intros k j Hk Hj. cbn [nth ravel unravel size fold_right].
      replace j with 0%nat by lia.
      rewrite !Nat.mul_1_r, Nat.add_0_r, Nat.div_1_r, Nat.mod_1_r. reflexivity.
    - eexists. split; [reflexivity|]. cbn [shape at_]. split; [reflexivity|].
      intros k j Hk Hj. rewrite unravel_ravel; [reflexivity|]. repeat constructor; assumption.
  Qed.

  Lemma draw_normal_one : forall Sg m r, (2 <= nrow Sg)%nat ->
      exists a, fst (draw (DNormal Sg m) 1 r) = Ok a /\ shape a = [nrow Sg; 1%nat].
  Proof.
    intros Sg m r Hd. cbn [Sampling.draw]. destruct (normals m Sg 1 r) as [z r']. cbn [fst].
    unfold squeeze, nda_of. cbn [shape at_ filter Nat.eqb negb].
    destruct (Nat.eqb_spec (nrow Sg) 1) as [E|E]; [lia|]. cbn [negb].
    eexists. split; [reflexivity|reflexivity].
  Qed.

  Lemma draw_normal_one_one : forall Sg m r, nrow Sg = 1%nat ->
      exists a, fst (draw (DNormal Sg m) 1 r) = Ok a /\ shape a = [].
  Proof.
    intros Sg m r Hd. cbn [Sampling.draw]. destruct (normals m Sg 1 r) as [z r']. cbn [fst].
    unfold squeeze, nda_of. cbn [shape at_ filter Nat.eqb negb]. rewrite Hd. cbn [Nat.eqb negb].
    eexists. split; reflexivity.
  Qed.

  Lemma np_choice_ok : forall n w N r, vlen w = n -> is_law n (vget w) ->
      np_choice rng uniforms n w N r =
      (Ok (fun k => choice (fst (uniforms N r) k) n (fun i => rsum (S i) (vget w) / rsum n (vget w))), snd (uniforms N r)).
  Proof.
    intros n w N r E [H0 H1]. unfold np_choice. rewrite E, Nat.eqb_refl. cbn [negb].
    replace (existsb (fun i => if Rlt_dec (vget w i) 0 then true else false) (seq 0 n)) with false.
    2:{ symmetry. apply not_true_is_false. intros C. apply existsb_exists in C. destruct C as (i & Hi & C).
        apply in_seq in Hi. destruct (Rlt_dec (vget w i) 0) as [L|]; [|discriminate]. specialize (H0 i). lia || (assert (0 <= vget w i) by (apply H0; lia); lra). }
    destruct (Rlt_dec (/ 2 ^ 26) (Rabs (rsum n (vget w) - 1))) as [L|_].
    { exfalso. rewrite H1 in L. replace (1 - 1) with 0 in L by ring. rewrite Rabs_R0 in L.
      assert (0 < / 2 ^ 26) by (apply Rinv_0_lt_compat; lra). lra. }
    destruct (uniforms N r). reflexivity.
  Qed.

  Lemma draw_finite : forall p w N r, vlen w = nrow p -> is_law (nrow p) (vget w) ->
      (forall k, 0 <= fst (uniforms N r) k < 1) ->
      exists a, draw (DFinite p w) N r = (Ok a, snd (uniforms N r)) /\ shape a = [N; ncol p] /\
        forall k, (k < N)%nat -> exists i, (i < nrow p)%nat /\
          (forall j, at_ a [k; j] = mget p i j) /\
          rsum i (vget w) <= fst (uniforms N r) k < rsum i (vget w) + vget w i.
  Proof.
    intros p w N r E Hl Hu. cbn [Sampling.draw]. rewrite np_choice_ok by assumption.
    eexists. split; [reflexivity|]. split; [reflexivity|]. intros k Hk.
    destruct Hl as [H0 H1].
    set (u := fst (uniforms N r) k). specialize (Hu k). fold u in Hu.
    assert (Hc : exists i, (i < nrow p)%nat /\ rsum i (vget w) <= u < rsum (S i) (vget w)).
    { clear - H1 Hu. revert H1. generalize (nrow p). 
      assert (G : forall n, u < rsum n (vget w) -> exists i, (i < n)%nat /\ rsum i (vget w) <= u < rsum (S i) (vget w)).
      { induction n as [|n IH]; intros L; [cbn in L; lra|].
        destruct (Rlt_dec u (rsum n (vget w))) as [L'|L'].
        - destruct (IH L') as (i & Hi & Hb). exists i. split; [lia|exact Hb].
        - exists n. split; [lia|]. lra. }
      intros n E. apply G. lra. }
    destruct Hc as (i & Hi & Hb). exists i. split; [exact Hi|].
    assert (Ec : choice u (nrow p) (fun k => rsum (S k) (vget w)) = i).
    { apply choice_interval; [exact H0|lra|exact Hi|exact Hb]. }
    split; [|rewrite rsum_S in Hb || cbn [rsum] in Hb; exact Hb].
    intros j. cbn [at_ nda_of nth]. rewrite H1.
    replace (choice (fst (uniforms N r) k) (nrow p) (fun i0 => rsum (S i0) (vget w) / 1)) with i; [reflexivity|].
    rewrite <- Ec at 1. unfold choice, u.
    generalize 0%nat. generalize (nrow p). induction n as [|n IH]; intros s; [reflexivity|]. cbn [choice_loop].
    replace (rsum (S s) (vget w) / 1) with (rsum (S s) (vget w)) by (unfold Rdiv; rewrite Rinv_1; ring). destruct (Rlt_dec (fst (uniforms N r) k) (rsum (S s) (vget w))); [reflexivity|]. apply IH.
  Qed.

  Lemma draw_shape : forall x N, drawable x -> (N <> 1%nat \/ ~ has_normal x) -> forall r,
      exists a r', draw x N r = (Ok a, r') /\ shape a = [N; dist_d x].
  Proof.
    intros x N. induction x as [p|p w|p|s m|a b|Sg m|l IH|] using dist_ind2; intros Hd HN r.
    - cbn [Sampling.draw drawable] in *. destruct (Nat.eqb_spec (nrow p) 0); [lia|].
      destruct (integers (nrow p) N r) as [i r']. do 2 eexists. split; reflexivity.
    - cbn [Sampling.draw drawable] in *. destruct Hd as [H1 H2]. rewrite np_choice_ok by assumption.
      do 2 eexists. split; reflexivity.
    - cbn [Sampling.draw]. destruct (integers 2 N r) as [i r']. do 2 eexists. split; reflexivity.
    - cbn [Sampling.draw]. destruct (normals _ _ N r) as [z r']. do 2 eexists. split; reflexivity.
    - cbn [Sampling.draw]. destruct (uniforms N r) as [u r']. do 2 eexists. split; reflexivity.
    - destruct (draw_normal Sg m N r) as (a & E & Es & _); [exact Hd| |].
      { destruct HN as [HN|HN]; [exact HN|]. exfalso. apply HN. exact I. }
      do 2 eexists. split; [exact E|exact Es].
    - destruct Hd as [Hl [Hd HB]]. fold (every drawable l) in Hd. cbn [Sampling.draw]. rewrite (all_have_d l HB). cbn [negb].
      destruct (in_turn_ok dist nda (fun y => draw y N) (fun y a => shape a = [N; dist_d y]) l) with (r := r)
        as (bs & r' & E & Hbs).
      { intros y r0 Hy. apply (every_in _ _ _ IH y Hy).
        - apply (every_in _ _ _ Hd y Hy).
        - destruct HN as [HN|HN]; [left; exact HN|right]. intros C. apply HN. cbn [has_normal].
          clear - Hy C. induction l as [|z l IH]; [destruct Hy|]. cbn. destruct Hy as [->|Hy]; [left; exact C|right; apply IH; exact Hy]. }
      rewrite E. destruct Hbs as [|y b l bs Hb Hbs]; [contradiction|]. unfold concatenate1.
      rewrite Hb. cbn [nth]. rewrite (forallb_rows N).
      2:{ constructor; [eexists; exact Hb|]. clear - Hbs. induction Hbs; constructor; eauto. }
      do 2 eexists. split; [reflexivity|]. cbn [shape nda_of dist_d fold_right]. rewrite Hb. cbn [nth].
      do 3 f_equal. clear - Hbs. induction Hbs as [|y b l bs Hb Hbs IH]; [reflexivity|]. cbn [fold_right].
      rewrite Hb. cbn [nth]. rewrite IH. reflexivity.
    - destruct Hd.
  Qed.

  Lemma draw_product : forall l N r a r', draw (DProduct l) N r = (Ok a, r') ->
      exists bs, each_in_turn (fun y => draw y N) l r bs r' /\ List.length bs = List.length l /\
        forall i k j, (i < List.length l)%nat ->
          let w := map (fun b => nth 1 (shape b) 0%nat) bs in
          (j < nth i w 0)%nat -> at_ a [k; offset w i + j]%nat = at_ (nth i bs (Nda [] (fun _ => 0))) [k; j].
  Proof.
    intros l N r a r' H. cbn [Sampling.draw] in H. destruct (forallb has_d l); [cbn [negb] in H|discriminate].
    destruct (in_turn (fun y => draw y N) l r) as [[bs|e] r1] eqn:E; [|discriminate].
    inversion H; subst. exists bs. apply in_turn_iff in E. split; [exact E|].
    assert (EL : List.length bs = List.length l).
    { clear - E. induction E; cbn; congruence. }
    split; [exact EL|]. intros i k j Hi w Hj. unfold concatenate1 in H1. destruct bs as [|b bs]; [cbn in EL; lia|].
    destruct (forallb _ _); [|discriminate]. injection H1 as <-. change (hstack_cols (b :: bs) k (offset w i + j) = at_ (nth i (b :: bs) (Nda [] (fun _ => 0))) [k; j]).
    apply hstack_block; [reflexivity| |exact Hj].
    rewrite EL. exact Hi.
  Qed.

  (** ** i.i.d. processes *)

  Lemma iid_simulate_spec : forall x names N T m0 st r,
      drawable x -> (T * N <> 1 \/ ~ has_normal x)%nat -> (1 <= T)%nat -> (1 <= N)%nat ->
      List.length names = dist_d x ->
      exists a r' s, draw x (T * N) r = (Ok a, r') /\ shape a = [T * N; dist_d x]%nat /\
        simulate (PIid x names) N T m0 st r = (Ok s, r') /\
        pa_T s = T /\ pa_N s = N /\ pa_d s = dist_d x /\
        forall t n j, (t < T)%nat -> (n < N)%nat -> (j < dist_d x)%nat -> pa_at s t n j = at_ a [t * N + n; j]%nat.
  Proof.
    intros x names N T m0 st r Hd HN HT HN1 Hn.
    destruct (draw_shape x (T * N) Hd HN r) as (a & r' & E & Es).
    exists a, r'. cbn [Sampling.simulate]. unfold iid_simulate. rewrite E. unfold reshape_panel. rewrite Es.
    destruct (Nat.eqb_spec (T * N) 0) as [C|C]; [nia|].
    cbn [size fold_right]. rewrite Nat.mul_1_r.
    rewrite (Nat.mul_comm (T * N) (dist_d x)), Nat.mod_mul, Nat.div_mul by assumption. cbn [Nat.eqb bind pa_d].
    rewrite Hn, Nat.eqb_refl. eexists. split; [reflexivity|]. split; [reflexivity|]. split; [reflexivity|]. cbn [pa_T pa_N pa_d pa_at].
    split; [reflexivity|]. split; [reflexivity|]. split; [reflexivity|].
    intros t n j Ht Hn' Hj. f_equal.
    replace (ravel [T; N; dist_d x] [t; n; j]) with (ravel [T * N; dist_d x]%nat [t * N + n; j]%nat).
    - apply unravel_ravel. repeat constructor; [nia|assumption].
    - cbn [ravel size fold_right]. lia.
  Qed.

  Lemma normal_simulate_spec : forall Sg m names N T m0 st r,
      (1 <= nrow Sg)%nat -> (1 <= T)%nat -> (1 <= N)%nat -> List.length names = nrow Sg ->
      exists s, simulate (PIid (DNormal Sg m) names) N T m0 st r = (Ok s, snd (normals m Sg (T * N) r)) /\
        pa_T s = T /\ pa_N s = N /\ pa_d s = nrow Sg /\
        forall t n j, (t < T)%nat -> (n < N)%nat -> (j < nrow Sg)%nat ->
          pa_at s t n j = fst (normals m Sg (T * N) r) (t * N + n)%nat j.
  Proof.
    intros Sg m names N T m0 st r Hd HT HN Hn. destruct (Nat.eq_dec (T * N) 1) as [E1|E1].
    - assert (T = 1)%nat by nia. assert (N = 1)%nat by nia. subst T N. cbn [Sampling.simulate].
      unfold iid_simulate. cbn [Sampling.draw Nat.mul Nat.add]. destruct (normals m Sg 1 r) as [z r']. cbn [fst snd].
      unfold squeeze, nda_of. cbn [shape at_ filter Nat.eqb negb].
      destruct (Nat.eqb_spec (nrow Sg) 1) as [E|E]; cbn [negb].
      + unfold reshape_panel. cbn [shape size fold_right Nat.mul Nat.eqb Nat.add Nat.modulo Nat.div Nat.divmod fst snd Nat.sub bind pa_d].
        rewrite Hn, E. cbn [Nat.eqb]. eexists. split; [reflexivity|]. cbn [pa_T pa_N pa_d pa_at].
        repeat (split; [reflexivity|]). intros t n j Ht Hn' Hj. assert (t = 0)%nat by lia. assert (n = 0)%nat by lia. assert (j = 0)%nat by lia.
        subst. reflexivity.
      + unfold reshape_panel. cbn [shape]. replace (size [nrow Sg; 1%nat]) with (nrow Sg) by (cbn; lia).
        change (1 * 1)%nat with 1%nat. cbn [Nat.eqb]. rewrite Nat.mod_1_r, Nat.div_1_r. cbn [Nat.eqb bind pa_d].
        rewrite Hn, Nat.eqb_refl. eexists. split; [reflexivity|]. cbn [pa_T pa_N pa_d pa_at at_].
        repeat (split; [reflexivity|]). intros t n j Ht Hn' Hj. assert (t = 0)%nat by lia. assert (n = 0)%nat by lia. subst.
        cbn [ravel unravel size fold_right nth Nat.mul Nat.add]. rewrite ?Nat.mul_1_r, ?Nat.add_0_r, ?Nat.div_1_r.
        rewrite (Nat.div_small j) by exact Hj. rewrite (Nat.mod_small j) by exact Hj. reflexivity.
    - destruct (iid_simulate_spec (DNormal Sg m) names N T m0 st r Hd (or_introl E1) HT HN Hn)
        as (a & r' & s & E & Es & Esim & e1 & e2 & e3 & Hv).
      destruct (draw_normal Sg m (T * N) r Hd E1) as (a' & E' & _ & Hz). rewrite E in E'. inversion E'; subst a' r'.
      exists s. split; [exact Esim|]. split; [exact e1|]. split; [exact e2|]. split; [exact e3|].
      intros t n j Ht Hn' Hj. rewrite Hv by assumption. apply Hz; [nia|assumption].
  Qed.

  Lemma iid_flags_ignored : forall x names N T m0 m0' st st' r,
      simulate (PIid x names) N T m0 st r = simulate (PIid x names) N T m0' st' r.
  Proof. reflexivity. Qed.

  (** ** Products *)

  Lemma simulate_sizes : forall x N T m0 st r s r', simulate x N T m0 st r = (Ok s, r') -> pa_T s = T /\ pa_N s = N.
  Proof.
    intros x N T. induction x as [y n|m|c|p|a b c|l IH] using proc_ind2; intros m0 st r s r' H; cbn [Sampling.simulate] in H.
    - unfold iid_simulate in H. destruct (draw y (T * N) r) as [[a|e] r1]; [|discriminate].
      unfold reshape_panel in H. destruct (Nat.eqb (T * N) 0); [discriminate|].
      destruct (Nat.eqb _ 0); [|discriminate]. cbn [bind pa_d] in H. destruct (Nat.eqb _ _); [|discriminate].
      inversion H; subst. split; reflexivity.
    - discriminate.
    - unfold chain_panel in H. destruct (if st then _ else _) as [u r1].
      destruct (mc_simulate c N T 0 st u); [|discriminate]. inversion H; subst. split; reflexivity.
    - unfold var1_panel in H. destruct (if st then _ else _) as [z r1].
      match goal with H : (bind ?x _, _) = _ |- _ => destruct x; [|discriminate] end. inversion H; subst. split; reflexivity.
    - destruct (if st then _ else _) as [z r1].
      match goal with H : (bind ?x _, _) = _ |- _ => destruct x; [|discriminate] end. inversion H; subst. split; reflexivity.
    - destruct (forallb proc_has_d l); [cbn [negb] in H|discriminate]. destruct m0; [discriminate|].
      destruct (in_turn (fun y => simulate y N T None st) l r) as [[bs|e] r1] eqn:E; [|discriminate].
      inversion H; subst. apply in_turn_iff in E. unfold concatenate2 in H1. destruct bs as [|b bs]; [discriminate|].
      destruct (forallb _ _); [|discriminate]. inversion H1; subst. cbn [pa_T pa_N].
      inversion E; subst. destruct IH as [IHy _]. exact (IHy _ _ _ _ _ H5).
  Qed.

  Lemma product_simulate_iff : forall l N T st r r',
      (exists s, simulate (PProduct l) N T None st r = (Ok s, r')) <->
      l <> [] /\ (forall pi names, ~ In (PIid (DBernouilli pi) names) l) /\
      exists bs, each_in_turn (fun y => simulate y N T None st) l r bs r'.
  Proof.
    intros l N T st r r'. split.
    - intros (s & H). cbn [Sampling.simulate] in H.
      destruct (forallb proc_has_d l) eqn:EB; [cbn [negb] in H|discriminate].
      destruct (in_turn (fun y => simulate y N T None st) l r) as [[bs|e] r1] eqn:E; [|discriminate].
      inversion H; subst. apply in_turn_iff in E. split; [|split; [|exists bs; exact E]].
      + intros ->. inversion E; subst. discriminate.
      + intros pi names Hi. rewrite forallb_forall in EB. specialize (EB _ Hi). discriminate.
    - intros (Hl & HB & bs & H). pose proof H as H0. apply in_turn_iff in H. cbn [Sampling.simulate].
      rewrite (all_procs_have_d l HB). cbn [negb]. rewrite H.
      unfold concatenate2. destruct bs as [|b bs]; [inversion H0; subst; contradiction|].
      replace (forallb (fun b0 => Nat.eqb (pa_T b0) (pa_T b) && Nat.eqb (pa_N b0) (pa_N b)) (b :: bs)) with true; [eexists; reflexivity|].
      symmetry. apply forallb_forall. intros c Hc.
      assert (G : forall c, In c (b :: bs) -> pa_T c = T /\ pa_N c = N).
      { clear - H0. revert H0. generalize (b :: bs). intros cs H0. induction H0 as [|y l r c r1 cs r2 E H IH]; intros d Hd; [destruct Hd|].
        destruct Hd as [->|Hd]; [exact (simulate_sizes _ _ _ _ _ _ _ _ E)|apply IH; exact Hd]. }
      destruct (G c Hc) as [-> ->]. destruct (G b (or_introl eq_refl)) as [-> ->]. rewrite !Nat.eqb_refl. reflexivity.
  Qed.

  Lemma product_simulate_blocks : forall l N T st r s r',
      simulate (PProduct l) N T None st r = (Ok s, r') ->
      pa_T s = T /\ pa_N s = N /\
      exists bs, each_in_turn (fun y => simulate y N T None st) l r bs r' /\ List.length bs = List.length l /\
        pa_d s = fold_right Nat.add 0%nat (map pa_d bs) /\
        forall i, (i < List.length l)%nat -> let b := nth i bs (Panel 0 0 0 (fun _ _ _ => 0)) in
          forall t n j, (j < pa_d b)%nat -> pa_at s t n (offset (map pa_d bs) i + j) = pa_at b t n j.
  Proof.
    intros l N T st r s r' H. destruct (simulate_sizes _ _ _ _ _ _ _ _ H) as [e1 e2]. split; [exact e1|]. split; [exact e2|].
    cbn [Sampling.simulate] in H. destruct (forallb proc_has_d l); [cbn [negb] in H|discriminate].
    destruct (in_turn (fun y => simulate y N T None st) l r) as [[bs|e] r1] eqn:E; [|discriminate].
    inversion H; subst. exists bs. apply in_turn_iff in E. split; [exact E|].
    assert (EL : List.length bs = List.length l) by (clear - E; induction E; cbn; congruence).
    split; [exact EL|]. unfold concatenate2 in H1. destruct bs as [|b bs]; [discriminate|].
    destruct (forallb _ _); [|discriminate].
    assert (Es : s = Panel (pa_T b) (pa_N b) (fold_right (fun a acc => pa_d a + acc)%nat 0%nat (b :: bs)) (panel_cols (b :: bs)))
      by congruence.
    rewrite Es. split.
    { assert (G : forall cs, fold_right (fun a acc => pa_d a + acc)%nat 0%nat cs = fold_right Nat.add 0%nat (map pa_d cs))
        by (induction cs as [|c cs IH]; [reflexivity|]; cbn [fold_right map]; rewrite IH; reflexivity).
      exact (G (b :: bs)). }
    intros i Hi b0 t n j Hj. cbn [pa_at]. apply (panel_block (b :: bs)); [reflexivity| |].
    - rewrite EL. exact Hi.
    - change 0%nat with (pa_d (Panel 0 0 0 (fun _ _ _ => 0))). rewrite map_nth. exact Hj.
  Qed.

  Lemma simulate_raises : forall x N T st, cannot_simulate st x -> forall m0 r, exists e, fst (simulate x N T m0 st r) = Err e.
  Proof.
    intros x N T st. induction x as [y n|m|c|p|a b c|l IH] using proc_ind2; intros Hc m0 r; cbn [Sampling.simulate].
    - cbn in Hc. subst y. unfold iid_simulate. cbn [Sampling.draw]. eexists. reflexivity.
    - eexists. reflexivity.
    - destruct Hc.
    - cbn in Hc. subst st. unfold var1_panel. cbn [var1_simulate negb bind]. eexists. reflexivity.
    - destruct (if st then _ else _) as [z r1]. cbn [fst].
      destruct (proj2 (simulate_never_returns {| v_rho := Mat 1 1 (fun _ _ => 0); v_Sigma := Mat 1 1 (fun _ _ => 0); v_mu := Vec 1 (fun _ => 0) |}
                  a b c T None st (fun t j => z (t * N)%nat j))) as (e & ->).
      eexists. reflexivity.
    - destruct (forallb proc_has_d l) eqn:EB; cbn [negb]; [|eexists; reflexivity].
      destruct m0; [eexists; reflexivity|]. cbn [cannot_simulate] in Hc. destruct Hc as [->|[Hc|(pi & names & Hi)]]; [eexists; reflexivity| |].
      2:{ rewrite forallb_forall in EB. specialize (EB _ Hi). discriminate. }
      destruct (some_in _ _ _ Hc) as (y & Hy & Hcy).
      destruct (in_turn_err _ _ (fun y => simulate y N T None st) l y Hy) with (r := r) as (e & E).
      { intros r0. exact (every_in _ _ _ IH y Hy Hcy None r0). }
      destruct (in_turn _ l r) as [[bs|e'] r1]; cbn [fst] in E; [discriminate|]. eexists. reflexivity.
  Qed.

  (** A chain in a product visits its nodes. *)
  Lemma chain_panel_nodes : forall c k N T st r,
      nrow (fst c) = k -> stochastic k (snd c) -> (1 <= T)%nat -> (1 <= k)%nat ->
      (forall n r m, 0 <= fst (pyrand n r) m < 1) ->
      exists s r', simulate (PChain c) N T None st r = (Ok s, r') /\ pa_d s = ncol (fst c) /\
        forall n, (n < N)%nat ->
          (forall j, (j < pa_d s)%nat -> pa_at s 0 n j = mget (fst c) 0 j) /\
          forall t, (t < T)%nat -> exists i, (i < k)%nat /\ (st = false -> i = 0%nat) /\
            forall j, (j < pa_d s)%nat -> pa_at s t n j = mget (fst c) i j.
  Proof.
    intros c k N T st r E Hs HT Hk Hu. cbn [Sampling.simulate]. unfold chain_panel.
    assert (Hrow : forall i j, (j < ncol (fst c))%nat -> nth j (row (fst c) i) 0 = mget (fst c) i j).
    { intros i j Hj. unfold row. erewrite (nth_indep _ 0 (mget (fst c) i 0)) by (rewrite map_length, seq_length; exact Hj).
      rewrite map_nth, seq_nth by exact Hj. reflexivity. }
    destruct st.
    - pose proof (Hu (N * (T - 1))%nat r) as Hu'. destruct (pyrand (N * (T - 1)) r) as [u r1]. cbn [fst] in Hu'.
      destruct (mc_simulate_spec c k N T 0 u E Hs HT Hk Hu') as [(sim & E1 & H1) _]. rewrite E1. cbn [bind].
      do 2 eexists. split; [reflexivity|]. cbn [pa_d pa_at]. split; [reflexivity|]. intros n Hn. split.
      + intros j Hj. destruct (H1 n 0%nat Hn) as [-> _]; [lia|]. apply Hrow; exact Hj.
      + intros t Ht. destruct (H1 n t Hn Ht) as (_ & i & Hi & Ei). exists i. split; [exact Hi|]. split; [discriminate|].
        intros j Hj. rewrite Ei. apply Hrow; exact Hj.
    - destruct (mc_simulate_spec c k N T 0 (fun _ => 0) E Hs HT Hk) as [_ (sim & E1 & H1)]; [intros; lra|]. rewrite E1. cbn [bind].
      do 2 eexists. split; [reflexivity|]. cbn [pa_d pa_at]. split; [reflexivity|]. intros n Hn. split.
      + intros j Hj. rewrite (H1 n 0%nat Hn) by lia. apply Hrow; exact Hj.
      + intros t Ht. exists 0%nat. split; [lia|]. split; [reflexivity|]. intros j Hj. rewrite (H1 n t Hn Ht). apply Hrow; exact Hj.
  Qed.

  (** VAR1 in a product. *)
  Lemma var1_panel_spec : forall p m0 N T r, (1 <= T)%nat ->
      match m0 with Some m => List.length m = nrow (v_Sigma p) | None => True end ->
      let z := normals (Vec (nrow (v_Sigma p)) (fun _ => 0)) (v_Sigma p) (N * T) r in
      exists s, simulate (PVar1 p) N T m0 true r = (Ok s, snd z) /\ pa_d s = nrow (v_Sigma p) /\
        forall n, (n < N)%nat ->
          (forall j, pa_at s 0 n j = match m0 with Some m => nth j m 0 | None => 0 end + vget (v_mu p) j) /\
          (forall t j, (S t < T)%nat ->
             pa_at s (S t) n j - vget (v_mu p) j
             = rsum (nrow (v_Sigma p)) (fun l => mget (v_rho p) j l * (pa_at s t n l - vget (v_mu p) l)) + fst z (S t * N + n)%nat j).
  Proof.
    intros p m0 N T r HT _ z. cbn [Sampling.simulate]. unfold var1_panel. unfold z. clear z.
    destruct (normals (Vec (nrow (v_Sigma p)) (fun _ => 0)) (v_Sigma p) (N * T) r) as [z r1]. cbn [fst snd].
    set (st := Vec 0 (fun j => match m0 with Some m => nth j m 0 | None => 0 end)).
    assert (Es : forall i, var1_simulate p T match m0 with Some m => Some (Vec (List.length m) (fun j => nth j m 0)) | None => None end true i
                           = var1_simulate p T (Some st) true i).
    { intros i. unfold st. destruct m0; reflexivity. }
    destruct (var1_simulate_spec p T st (fun t j => z (t * N + 0)%nat j) HT) as (s0 & E0 & _).
    rewrite Es, E0. cbn [bind]. eexists. split; [reflexivity|]. cbn [pa_d pa_at]. split; [reflexivity|].
    intros n Hn. rewrite Es. destruct (var1_simulate_spec p T st (fun t j => z (t * N + n)%nat j) HT) as (s1 & E1 & Ha & Hb).
    rewrite E1. split; [exact Ha|exact Hb].
  Qed.
End Draw.

(** ** Single statements for the other laws *)

Section Other.
  Variable rng : Type.
  Variable uniforms : nat -> rng -> (nat -> R) * rng.
  Variable integers : nat -> nat -> rng -> (nat -> nat) * rng.
  Variable normals : vec -> mat -> nat -> rng -> (nat -> nat -> R) * rng.
  Variable pyrand : nat -> rng -> (nat -> R) * rng.
  Notation draw := (draw rng uniforms integers normals).
  Notation simulate := (simulate rng uniforms integers normals pyrand).

  Lemma draw_equi : forall p N r, (1 <= nrow p)%nat ->
      exists a, draw (DEqui p) N r = (Ok a, snd (integers (nrow p) N r)) /\ shape a = [N; ncol p] /\
        forall k j, at_ a [k; j] = mget p (fst (integers (nrow p) N r) k) j.
  Proof.
    intros p N r Hp. cbn [Sampling.draw]. destruct (Nat.eqb_spec (nrow p) 0); [lia|].
    destruct (integers (nrow p) N r) as [i r']. eexists. split; [reflexivity|]. split; reflexivity.
  Qed.

  Lemma draw_uniform : forall a b N r,
      a <= b -> (forall k, 0 <= fst (uniforms N r) k < 1) ->
      exists y, draw (DUniform a b) N r = (Ok y, snd (uniforms N r)) /\ shape y = [N; 1%nat] /\
        forall k, (k < N)%nat ->
          at_ y [k; 0%nat] = a + (b - a) * fst (uniforms N r) k /\ a <= at_ y [k; 0%nat] <= b /\
          (a < b -> at_ y [k; 0%nat] < b) /\
          forall c, a <= c <= b -> a < b -> (at_ y [k; 0%nat] < c <-> fst (uniforms N r) k < (c - a) / (b - a)).
  Proof.
    intros a b N r Hab Hu. cbn [Sampling.draw]. destruct (uniforms N r) as [u r']. cbn [fst snd] in *.
    eexists. split; [reflexivity|]. split; [reflexivity|]. intros k Hk. specialize (Hu k). cbn [at_ nda_of nth].
    split; [reflexivity|]. split; [nra|]. split; [nra|].
    intros c Hc L. assert (Hd : 0 < b - a) by lra. split; intros Hlt.
    - apply (Rmult_lt_reg_l (b - a)); [exact Hd|]. replace ((b - a) * ((c - a) / (b - a))) with (c - a) by (field; lra). lra.
    - apply (Rmult_lt_compat_l (b - a)) in Hlt; [|exact Hd].
      replace ((b - a) * ((c - a) / (b - a))) with (c - a) in Hlt by (field; lra). lra.
  Qed.

  Lemma draw_unormal_normal : forall sigma mu N r, N <> 1%nat ->
      exists a b r',
        draw (DUNormal sigma mu) N r = (Ok a, r') /\
        draw (DNormal (Mat 1 1 (fun _ _ => sigma ^ 2)) (Vec 1 (fun _ => mu))) N r = (Ok b, r') /\
        shape a = [N; 1%nat] /\ shape b = [N; 1%nat] /\
        forall k, (k < N)%nat -> at_ a [k; 0%nat] = at_ b [k; 0%nat].
  Proof.
    intros sigma mu N r HN.
    destruct (draw_normal rng uniforms integers normals (Mat 1 1 (fun _ _ => sigma ^ 2)) (Vec 1 (fun _ => mu)) N r)
      as (b & E & Es & Hb); [cbn; lia|exact HN|].
    cbn [Sampling.draw] in *. destruct (normals _ _ N r) as [z r']. cbn [fst snd nrow] in *.
    exists (nda_of N 1 (fun k j => z k 0%nat)), b, r'. split; [reflexivity|]. split; [exact E|]. split; [reflexivity|].
    split; [exact Es|]. intros k Hk. rewrite Hb by (try exact Hk; lia). reflexivity.
  Qed.

  Lemma draw_single_normal : forall Sg m r,
      ((2 <= nrow Sg)%nat -> exists a, fst (draw (DNormal Sg m) 1 r) = Ok a /\ shape a = [nrow Sg; 1%nat]) /\
      (nrow Sg = 1%nat -> exists a, fst (draw (DNormal Sg m) 1 r) = Ok a /\ shape a = []).
  Proof.
    intros Sg m r. split; intros H; [apply draw_normal_one|apply draw_normal_one_one]; exact H.
  Qed.

  Lemma draw_single_product : forall Sg m sigma mu r, (1 <= nrow Sg)%nat ->
      fst (draw (DProduct [DNormal Sg m; DUNormal sigma mu]) 1 r) = Err ExcValue.
  Proof.
    intros Sg m sigma mu r Hd. cbn [Sampling.draw Sampling.in_turn].
    destruct (normals m Sg 1 r) as [z r1]. destruct (normals _ _ 1 r1) as [z2 r2].
    unfold squeeze, nda_of. cbn [shape at_ filter Nat.eqb negb].
    destruct (Nat.eqb_spec (nrow Sg) 1) as [E|E]; cbn [negb fst]; unfold concatenate1, rows_are; cbn [shape nth forallb].
    - reflexivity.
    - rewrite Nat.eqb_refl. destruct (nrow Sg) as [|[|n]]; [lia|lia|]. reflexivity.
  Qed.

  Lemma iid_empty : forall x names N T m0 st r, (T * N = 0)%nat ->
      drawable x -> simulate (PIid x names) N T m0 st r = (Err ExcValue, snd (draw x 0 r)).
  Proof.
    intros x names N T m0 st r E Hd. cbn [Sampling.simulate]. unfold iid_simulate. rewrite E.
    destruct (draw_shape rng uniforms integers normals x 0 Hd (or_introl (Nat.neq_succ_diag_r 0)) r) as (a & r' & Ea & _).
    rewrite Ea. unfold reshape_panel. rewrite E. reflexivity.
  Qed.

  Lemma iid_names : forall x names N T m0 st r,
      drawable x -> (T * N <> 1 \/ ~ has_normal x)%nat -> (1 <= T)%nat -> (1 <= N)%nat ->
      List.length names <> dist_d x ->
      fst (simulate (PIid x names) N T m0 st r) = Err ExcValue.
  Proof.
    intros x names N T m0 st r Hd HN HT HN1 Hn.
    destruct (draw_shape rng uniforms integers normals x (T * N) Hd HN r) as (a & r' & E & Es).
    cbn [Sampling.simulate]. unfold iid_simulate. rewrite E. unfold reshape_panel. rewrite Es.
    destruct (Nat.eqb_spec (T * N) 0) as [C|C]; [nia|].
    cbn [size fold_right]. rewrite Nat.mul_1_r.
    rewrite (Nat.mul_comm (T * N) (dist_d x)), Nat.mod_mul, Nat.div_mul by assumption. cbn [Nat.eqb bind pa_d fst].
    destruct (Nat.eqb_spec (List.length names) (dist_d x)); [contradiction|reflexivity].
  Qed.

  Lemma product_m0 : forall l N T m0 st r, (forall pi names, ~ In (PIid (DBernouilli pi) names) l) ->
      simulate (PProduct l) N T (Some m0) st r = (Err (ExcGeneric "Not implemented"), r).
  Proof. intros l N T m0 st r HB. cbn [Sampling.simulate]. rewrite (all_procs_have_d l HB). reflexivity. Qed.

  Lemma product_bernouilli : forall l N T m0 st r pi names, In (PIid (DBernouilli pi) names) l ->
      simulate (PProduct l) N T m0 st r = (Err ExcAttribute, r).
  Proof.
    intros l N T m0 st r pi names Hi. cbn [Sampling.simulate].
    replace (forallb proc_has_d l) with false; [reflexivity|]. symmetry. apply not_true_is_false. intros E.
    rewrite forallb_forall in E. specialize (E _ Hi). discriminate.
  Qed.

  Lemma draw_bernouilli_law : forall pi N (r : rng),
  (forall k, (k < N)%nat -> (fst (integers 2%nat N r) k < 2)%nat) ->
  exists a, draw (DBernouilli pi) N r = (Ok a, snd (integers 2%nat N r)) /\ shape a = [N; 1%nat] /\
    forall k, (k < N)%nat -> at_ a [k; 0%nat] = INR (fst (integers 2%nat N r) k).
Proof.
  intros pi N r H. cbn [Sampling.draw]. destruct (integers 2%nat N r) as [i r'] eqn:E. cbn [fst snd] in *.
  eexists. split; [reflexivity|]. split; [reflexivity|]. intros k Hk. specialize (H k Hk). cbn.
  destruct (i k) as [|[|n]]; [reflexivity|cbn; lra|lia].
Qed.

Lemma draw_bernouilli : forall l N r pi, In (DBernouilli pi) l -> draw (DProduct l) N r = (Err ExcAttribute, r).
  Proof.
    intros l N r pi Hi. cbn [Sampling.draw].
    replace (forallb has_d l) with false; [reflexivity|]. symmetry. apply not_true_is_false. intros E.
    rewrite forallb_forall in E. specialize (E _ Hi). discriminate.
  Qed.
End Other.

(** A generator to instantiate the statements: its state counts the numbers given so far. *)
Definition toy_uniforms (N r : nat) : (nat -> R) * nat := ((fun k => / 2 ^ (S (r + k))), (r + N)%nat).
Definition toy_integers (n N r : nat) : (nat -> nat) * nat := ((fun k => (r + k) mod n)%nat, (r + N)%nat).
Definition toy_normals (m : vec) (Sg : mat) (N r : nat) : (nat -> nat -> R) * nat :=
  ((fun k j => vget m j + INR (r + k * nrow Sg + j)), (r + N * nrow Sg)%nat).

Lemma toy_uniforms_unit : forall N r k, 0 <= fst (toy_uniforms N r) k < 1.
Proof.
  intros N r k. unfold toy_uniforms. cbn [fst].
  assert (0 < 2 ^ (S (r + k))) by (apply pow_lt; lra).
  assert (1 < 2 ^ (S (r + k))) by (apply Rlt_pow_R1; [lra|lia]).
  split; [apply Rlt_le, Rinv_0_lt_compat; assumption|]. rewrite <- Rinv_1. apply Rinv_lt_contravar; lra.
Qed.

(** Without shocks, an i.i.d. process still moves. *)
Lemma iid_not_deterministic :
  exists x names s r', drawable x /\
    simulate nat toy_uniforms toy_integers toy_normals toy_uniforms (PIid x names) 1 2 None false 0%nat = (Ok s, r') /\
    pa_at s 0 0 0 <> pa_at s 1 0 0.
Proof.
  exists (DUNormal 1 0), ["e"%string].
  do 2 eexists. split; [exact I|]. split; [reflexivity|]. vm_compute. lra.
Qed.

(** Weights that are not a law. *)
Lemma draw_finite_refused : forall rng uniforms integers normals p w N (r : rng),
  draw rng uniforms integers normals (DFinite p w) N r = (Err ExcValue, r) <->
  (vlen w <> nrow p \/ (exists i, (i < nrow p)%nat /\ vget w i < 0) \/ / 2 ^ 26 < Rabs (rsum (nrow p) (vget w) - 1)).
Proof.
  intros rng uniforms integers normals p w N r. cbn [Sampling.draw]. unfold np_choice.
  destruct (Nat.eqb (vlen w) (nrow p)) eqn:E; cbn [negb].
  2:{ apply Nat.eqb_neq in E. split; [intros _; now left | reflexivity]. }
  apply Nat.eqb_eq in E.
  destruct (existsb (fun i => if Rlt_dec (vget w i) 0 then true else false) (seq 0 (nrow p))) eqn:X.
  { split; [intros _ | reflexivity]. right; left. apply existsb_exists in X. destruct X as (i & Hi & Hn). exists i.
    apply in_seq in Hi. split; [lia|]. destruct (Rlt_dec (vget w i) 0); [assumption | discriminate]. }
  assert (NX : ~ exists i, (i < nrow p)%nat /\ vget w i < 0).
  { intros (i & Hi & Hn). assert (K : existsb (fun i => if Rlt_dec (vget w i) 0 then true else false) (seq 0 (nrow p)) = true).
    { apply existsb_exists. exists i. split; [apply in_seq; lia|]. destruct (Rlt_dec (vget w i) 0); [reflexivity | contradiction]. }
    congruence. }
  destruct (Rlt_dec (/ 2 ^ 26) (Rabs (rsum (nrow p) (vget w) - 1))) as [L|L].
  { split; [intros _; now right; right | reflexivity]. }
  split; [|intros [H|[H|H]]; contradiction].
  destruct (uniforms N r) as [u r'] eqn:Eu. discriminate.
Qed.

