(** Proofs about Model/PerfectForesight.v and Model/SteadyState.v. *)
From Coq Require Import String Reals List Arith ZArith Lia Lra Bool FunctionalExtensionality.
From Verif.Base Require Import Prelude Ext Arrays Norms Sums.
From Verif.Model Require Import Complementarity Newton SteadyState PerfectForesight.
From Verif.Spec Require Import Complementarity PerfectForesight.
From Verif.Proofs Require Import ComplementarityFinal NewtonProofs.
Import ListNotations.
Open Scope R_scope.

(** ** Array writes *)

Lemma set2_hit : forall a r0 r1 c0 c1 v i j,
    (r0 <= i < r1)%nat -> (c0 <= j < c1)%nat -> set2 a r0 r1 c0 c1 v i j = v (i - r0)%nat (j - c0)%nat.
Proof.
  intros. unfold set2.
  destruct (Nat.leb_spec r0 i), (Nat.ltb_spec i r1), (Nat.leb_spec c0 j), (Nat.ltb_spec j c1);
    simpl; try lia; reflexivity.
Qed.

Lemma set2_miss : forall a r0 r1 c0 c1 v i j,
    ~ ((r0 <= i < r1)%nat /\ (c0 <= j < c1)%nat) -> set2 a r0 r1 c0 c1 v i j = a i j.
Proof.
  intros. unfold set2.
  destruct (Nat.leb_spec r0 i), (Nat.ltb_spec i r1), (Nat.leb_spec c0 j), (Nat.ltb_spec j c1);
    simpl; try lia; reflexivity.
Qed.

Lemma set4_hit : forall a i0 k0 k1 j0 l0 l1 v i k j l,
    i = i0 -> j = j0 -> (k0 <= k < k1)%nat -> (l0 <= l < l1)%nat ->
    set4 a i0 k0 k1 j0 l0 l1 v i k j l = v (k - k0)%nat (l - l0)%nat.
Proof.
  intros. unfold set4.
  destruct (Nat.eqb_spec i i0), (Nat.eqb_spec j j0), (Nat.leb_spec k0 k), (Nat.ltb_spec k k1),
    (Nat.leb_spec l0 l), (Nat.ltb_spec l l1); simpl; try lia; reflexivity.
Qed.

Lemma set4_miss : forall a i0 k0 k1 j0 l0 l1 v i k j l,
    ~ (i = i0 /\ j = j0 /\ (k0 <= k < k1)%nat /\ (l0 <= l < l1)%nat) ->
    set4 a i0 k0 k1 j0 l0 l1 v i k j l = a i k j l.
Proof.
  intros. unfold set4.
  destruct (Nat.eqb_spec i i0), (Nat.eqb_spec j j0), (Nat.leb_spec k0 k), (Nat.ltb_spec k k1),
    (Nat.leb_spec l0 l), (Nat.ltb_spec l l1); simpl; try lia; reflexivity.
Qed.

Section PF.
  Variables n_s n_x : nat.
  Variable g : vecR -> vecR -> vecR -> vecR -> vecR.
  Variable f : vecR -> vecR -> vecR -> vecR -> vecR -> vecR -> vecR.
  Variables g_s g_x : vecR -> vecR -> vecR -> vecR -> nat -> nat -> R.
  Variables f_s f_x f_S f_X : vecR -> vecR -> vecR -> vecR -> vecR -> vecR -> nat -> nat -> R.

  Notation st := (st n_s).
  Notation ct := (ct n_s n_x).
  Notation det_res := (det_res n_s n_x g f).
  Notation det_jac := (det_jac n_s n_x g_s g_x f_s f_x f_S f_X).
  Notation n := (n_s + n_x)%nat.

  (** *** Entries of the residual *)

  Lemma det_res_start : forall N guess start m k,
      (2 <= N)%nat -> (k < n_s)%nat -> det_res N guess start m 0 k = - (guess 0%nat k - start k).
  Proof.
    intros. unfold PerfectForesight.det_res. rewrite set2_miss by lia. rewrite set2_hit by lia.
    now rewrite Nat.sub_0_r.
  Qed.

  Lemma det_res_transition : forall N guess start m t k,
      (S t < N)%nat -> (k < n_s)%nat ->
      det_res N guess start m (S t) k = g (m t) (st guess t) (ct guess t) (m (S t)) k - guess (S t) k.
  Proof.
    intros. unfold PerfectForesight.det_res. rewrite set2_miss by lia. rewrite set2_miss by lia.
    rewrite set2_miss by lia. rewrite set2_hit by lia.
    replace (S t - 1)%nat with t by lia. rewrite Nat.sub_0_r.
    unfold PerfectForesight.st at 2. unfold slice. destruct (Nat.ltb_spec k n_s); [reflexivity|lia].
  Qed.

  Lemma det_res_arbitrage : forall N guess start m t k,
      (S t < N)%nat -> (k < n_x)%nat ->
      det_res N guess start m t (n_s + k) =
      f (m t) (st guess t) (ct guess t) (m (S t)) (st guess (S t)) (ct guess (S t)) k.
  Proof.
    intros. unfold PerfectForesight.det_res. rewrite set2_miss by lia. rewrite set2_miss by lia.
    rewrite set2_hit by lia. replace (n_s + k - n_s)%nat with k by lia. now rewrite Nat.sub_0_r.
  Qed.

  Lemma det_res_end : forall N guess start m k,
      (2 <= N)%nat -> (k < n_x)%nat ->
      det_res N guess start m (N - 1) (n_s + k) =
      - (guess (N - 1)%nat (n_s + k)%nat - guess (N - 2)%nat (n_s + k)%nat).
  Proof.
    intros. unfold PerfectForesight.det_res. rewrite set2_hit by lia.
    now replace (n_s + k - n_s)%nat with k by lia.
  Qed.

  Lemma states_of_st : forall guess t, states_of n_s guess t = st guess t.
  Proof. intros. reflexivity. Qed.
  Lemma controls_of_ct : forall guess t, controls_of n_s n_x guess t = ct guess t.
  Proof. intros. reflexivity. Qed.
  Lemma states_of_at : forall guess t k, (k < n_s)%nat -> states_of n_s guess t k = guess t k.
  Proof. intros. unfold states_of. destruct (Nat.ltb_spec k n_s); [reflexivity|lia]. Qed.
  Lemma controls_of_at : forall guess t k,
      (k < n_x)%nat -> controls_of n_s n_x guess t k = guess t (n_s + k)%nat.
  Proof. intros. unfold controls_of. destruct (Nat.ltb_spec k n_x); [reflexivity|lia]. Qed.

  (** *** C36 *)
  Lemma det_residual_zero : forall N Nsh guess start m r j,
      det_residual n_s n_x g f g_s g_x f_s f_x f_S f_X N Nsh guess start m = Ok (r, j) ->
      ((forall t k, (t < N)%nat -> (k < n)%nat -> r t k = 0) <->
       perfect_foresight n_s n_x g f (N - 1) start m (states_of n_s guess) (controls_of n_s n_x guess)).
  Proof.
    intros N Nsh guess start m r j H. unfold det_residual in H.
    destruct (Nat.eqb N Nsh); cbn [negb] in H; [|discriminate].
    destruct (Nat.ltb_spec N 2); [discriminate|]. injection H as <- _.
    unfold perfect_foresight. split.
    - intros Z. split; [|split].
      + intros k Hk. rewrite states_of_at by lia.
        specialize (Z 0%nat k ltac:(lia) ltac:(lia)). rewrite det_res_start in Z by lia. lra.
      + intros t Ht. split; intros k Hk.
        * rewrite states_of_at by lia. rewrite states_of_st, controls_of_ct.
          specialize (Z (S t) k ltac:(lia) ltac:(lia)). rewrite det_res_transition in Z by lia. lra.
        * rewrite !states_of_st, !controls_of_ct.
          specialize (Z t (n_s + k)%nat ltac:(lia) ltac:(lia)).
          rewrite det_res_arbitrage in Z by lia. exact Z.
      + intros k Hk. rewrite !controls_of_at by lia.
        specialize (Z (N - 1)%nat (n_s + k)%nat ltac:(lia) ltac:(lia)).
        rewrite det_res_end in Z by lia. replace (N - 1 - 1)%nat with (N - 2)%nat by lia. lra.
    - intros (Z0 & Zt & Ze) t k Ht Hk.
      destruct (Nat.lt_ge_cases k n_s) as [Hs|Hs].
      + destruct t as [|t].
        * rewrite det_res_start by lia. specialize (Z0 k Hs). rewrite states_of_at in Z0 by lia. lra.
        * rewrite det_res_transition by lia. destruct (Zt t ltac:(lia)) as [Z _]. specialize (Z k Hs).
          rewrite states_of_at in Z by lia. rewrite states_of_st, controls_of_ct in Z. lra.
      + replace k with (n_s + (k - n_s))%nat by lia. set (q := (k - n_s)%nat).
        assert (Hq : (q < n_x)%nat) by (unfold q; lia).
        destruct (Nat.lt_ge_cases (S t) N) as [HN|HN].
        * rewrite det_res_arbitrage by lia. destruct (Zt t ltac:(lia)) as [_ Z]. specialize (Z q Hq).
          rewrite !states_of_st, !controls_of_ct in Z. exact Z.
        * replace t with (N - 1)%nat by lia. rewrite det_res_end by lia. specialize (Ze q Hq).
          rewrite !controls_of_at in Ze by lia. replace (N - 1 - 1)%nat with (N - 2)%nat in Ze by lia. lra.
  Qed.

  Lemma det_residual_small : forall N Nsh guess start m r j d,
      det_residual n_s n_x g f g_s g_x f_s f_x f_S f_X N Nsh guess start m = Ok (r, j) ->
      ((forall t k, (t < N)%nat -> (k < n)%nat -> Rabs (r t k) < d) <->
       perfect_foresight_within n_s n_x g f d (N - 1) start m (states_of n_s guess) (controls_of n_s n_x guess)).
  Proof.
    intros N Nsh guess start m r j d H. unfold det_residual in H.
    destruct (Nat.eqb N Nsh); cbn [negb] in H; [|discriminate].
    destruct (Nat.ltb_spec N 2); [discriminate|]. injection H as <- _.
    unfold perfect_foresight_within. split.
    - intros Z. split; [|split].
      + intros k Hk. rewrite states_of_at by lia.
        specialize (Z 0%nat k ltac:(lia) ltac:(lia)). rewrite det_res_start in Z by lia.
        now rewrite Rabs_Ropp in Z.
      + intros t Ht. split; intros k Hk.
        * rewrite states_of_at by lia. rewrite states_of_st, controls_of_ct.
          specialize (Z (S t) k ltac:(lia) ltac:(lia)). rewrite det_res_transition in Z by lia.
          now rewrite Rabs_minus_sym.
        * rewrite !states_of_st, !controls_of_ct.
          specialize (Z t (n_s + k)%nat ltac:(lia) ltac:(lia)).
          rewrite det_res_arbitrage in Z by lia. exact Z.
      + intros k Hk. rewrite !controls_of_at by lia.
        specialize (Z (N - 1)%nat (n_s + k)%nat ltac:(lia) ltac:(lia)).
        rewrite det_res_end in Z by lia. replace (N - 1 - 1)%nat with (N - 2)%nat by lia.
        now rewrite Rabs_Ropp in Z.
    - intros (Z0 & Zt & Ze) t k Ht Hk.
      destruct (Nat.lt_ge_cases k n_s) as [Hs|Hs].
      + destruct t as [|t].
        * rewrite det_res_start by lia. specialize (Z0 k Hs). rewrite states_of_at in Z0 by lia.
          now rewrite Rabs_Ropp.
        * rewrite det_res_transition by lia. destruct (Zt t ltac:(lia)) as [Z _]. specialize (Z k Hs).
          rewrite states_of_at in Z by lia. rewrite states_of_st, controls_of_ct in Z.
          now rewrite Rabs_minus_sym.
      + replace k with (n_s + (k - n_s))%nat by lia. set (q := (k - n_s)%nat).
        assert (Hq : (q < n_x)%nat) by (unfold q; lia).
        destruct (Nat.lt_ge_cases (S t) N) as [HN|HN].
        * rewrite det_res_arbitrage by lia. destruct (Zt t ltac:(lia)) as [_ Z]. specialize (Z q Hq).
          rewrite !states_of_st, !controls_of_ct in Z. exact Z.
        * replace t with (N - 1)%nat by lia. rewrite det_res_end by lia. specialize (Ze q Hq).
          rewrite !controls_of_at in Ze by lia. replace (N - 1 - 1)%nat with (N - 2)%nat in Ze by lia.
          now rewrite Rabs_Ropp.
  Qed.

  (** *** Entries of the Jacobian *)

  (** What the loop leaves in the array after [c] turns. *)
  Definition loop_form (c : nat) (guess m : nat -> nat -> R) (i k j l : nat) : R :=
    let D (h : vecR -> vecR -> vecR -> vecR -> vecR -> vecR -> nat -> nat -> R) i :=
      h (m i) (st guess i) (ct guess i) (m (S i)) (st guess (S i)) (ct guess (S i)) in
    let G (h : vecR -> vecR -> vecR -> vecR -> nat -> nat -> R) i :=
      h (m i) (st guess i) (ct guess i) (m (S i)) in
    if Nat.ltb k n_s then
      match i with
      | O => 0
      | S i' =>
          if Nat.ltb i' c then
            if Nat.eqb j i' then
              if Nat.ltb l n_s then G g_s i' k l else G g_x i' k (l - n_s)%nat
            else if Nat.eqb j i then if Nat.ltb l n_s then - eye k l else 0
            else 0
          else 0
      end
    else
      if Nat.ltb i c then
        if Nat.eqb j i then
          if Nat.ltb l n_s then D f_s i (k - n_s)%nat l else D f_x i (k - n_s)%nat (l - n_s)%nat
        else if Nat.eqb j (S i) then
          if Nat.ltb l n_s then D f_S i (k - n_s)%nat l else D f_X i (k - n_s)%nat (l - n_s)%nat
        else 0
      else 0.

  Ltac s4 := repeat first [rewrite set4_miss by lia | rewrite set4_hit by lia].
  Ltac idx := rewrite ?Nat.sub_0_r, ?Nat.add_1_r; try reflexivity.
  Ltac ltbs := repeat match goal with
    | |- context[Nat.ltb ?a ?b] => destruct (Nat.ltb_spec a b); try lia
    | |- context[Nat.eqb ?a ?b] => destruct (Nat.eqb_spec a b); try lia
    end.

  Lemma det_jac_loop : forall c guess m i k j l,
      (k < n)%nat -> (l < n)%nat ->
      for_range c (fun i jac =>
        let M := fun t => m (S t) in
        let s := st guess in
        let x := ct guess in
        let S_ := fun t => st guess (S t) in
        let X := fun t => ct guess (S t) in
        let jac := set4 jac i n_s n i 0 n_s (f_s (m i) (s i) (x i) (M i) (S_ i) (X i)) in
        let jac := set4 jac i n_s n i n_s n (f_x (m i) (s i) (x i) (M i) (S_ i) (X i)) in
        let jac := set4 jac i n_s n (i + 1) 0 n_s (f_S (m i) (s i) (x i) (M i) (S_ i) (X i)) in
        let jac := set4 jac i n_s n (i + 1) n_s n (f_X (m i) (s i) (x i) (M i) (S_ i) (X i)) in
        let jac := set4 jac (i + 1) 0 n_s i 0 n_s (g_s (m i) (s i) (x i) (M i)) in
        let jac := set4 jac (i + 1) 0 n_s i n_s n (g_x (m i) (s i) (x i) (M i)) in
        set4 jac (i + 1) 0 n_s (i + 1) 0 n_s (fun k l => - eye k l)) (fun _ _ _ _ => 0) i k j l
      = loop_form c guess m i k j l.
  Proof.
    induction c as [|c IH]; intros guess m i k j l Hk Hl.
    - simpl. unfold loop_form. destruct (Nat.ltb k n_s); [destruct i|]; reflexivity.
    - cbn [for_range]. cbv zeta.
      destruct (Nat.lt_ge_cases k n_s) as [Ks|Ks].
      + destruct (Nat.eq_dec i (S c)) as [->|Hi].
        * unfold loop_form. ltbs; subst; s4; idx; rewrite IH by lia; unfold loop_form; ltbs; reflexivity.
        * s4. rewrite IH by lia. unfold loop_form. destruct i; ltbs; reflexivity.
      + destruct (Nat.eq_dec i c) as [->|Hi].
        * unfold loop_form. ltbs; subst; s4; idx; rewrite IH by lia; unfold loop_form; ltbs; reflexivity.
        * s4. rewrite IH by lia. unfold loop_form. ltbs; reflexivity.
  Qed.

  (** The whole Jacobian. *)
  Definition jac_form (N : nat) (guess m : nat -> nat -> R) (i k j l : nat) : R :=
    if Nat.ltb k n_s then
      if Nat.eqb i 0 then
        if Nat.eqb j 0 then (if Nat.ltb l n_s then - eye k l else 0) else 0
      else loop_form (N - 1) guess m i k j l
    else if Nat.ltb (S i) N then loop_form (N - 1) guess m i k j l
    else if Nat.ltb l n_s then 0
    else if Nat.eqb j (N - 1) then - eye k l
    else if Nat.eqb j (N - 2) then eye k l else 0.

  Lemma eye_shift : forall a k l, (a <= k)%nat -> (a <= l)%nat -> eye (k - a) (l - a) = eye k l.
  Proof. intros. unfold eye. ltbs; reflexivity. Qed.

  Lemma det_jac_entry : forall N guess m i k j l,
      (2 <= N)%nat -> (i < N)%nat -> (j < N)%nat -> (k < n)%nat -> (l < n)%nat ->
      det_jac N guess m i k j l = jac_form N guess m i k j l.
  Proof.
    intros N guess m i k j l HN Hi Hj Hk Hl. unfold PerfectForesight.det_jac. cbv zeta.
    pose proof (fun i k j l Hk Hl => det_jac_loop (N - 1) guess m i k j l Hk Hl) as L. cbv zeta in L.
    unfold jac_form. ltbs; subst; s4; rewrite ?eye_shift by lia; idx; rewrite L by lia;
      try reflexivity; unfold loop_form; ltbs; reflexivity.
  Qed.

  (** *** C37 *)

  Lemma rsum_two : forall N a b F,
      (a < N)%nat -> (b < N)%nat -> a <> b ->
      (forall j, (j < N)%nat -> j <> a -> j <> b -> F j = 0) -> rsum N F = F a + F b.
  Proof.
    intros N a b F Ha Hb Hab H.
    rewrite (rsum_ext N F (fun j => (if Nat.eqb j a then F a else 0) + (if Nat.eqb j b then F b else 0))).
    - rewrite rsum_plus.
      rewrite (rsum_single N a) by first [exact Ha | intros i _ Hi; destruct (Nat.eqb_spec i a); [lia|reflexivity]].
      rewrite (rsum_single N b) by first [exact Hb | intros i _ Hi; destruct (Nat.eqb_spec i b); [lia|reflexivity]].
      now rewrite !Nat.eqb_refl.
    - intros i Hi. destruct (Nat.eqb_spec i a), (Nat.eqb_spec i b); subst; try lia; try lra.
      rewrite H by assumption. lra.
  Qed.

  Lemma st_moved : forall guess d h t,
      st (fun t q => guess t q + h * d t q) t = moved (st guess t) (st d t) h.
  Proof.
    intros. apply functional_extensionality. intros k. unfold PerfectForesight.st, slice, moved.
    destruct (Nat.ltb k n_s); lra.
  Qed.

  Lemma ct_moved : forall guess d h t,
      ct (fun t q => guess t q + h * d t q) t = moved (ct guess t) (ct d t) h.
  Proof.
    intros. apply functional_extensionality. intros k. unfold PerfectForesight.ct, slice, moved.
    destruct (Nat.ltb k n_x); lra.
  Qed.

  Lemma st_row : forall d t A k, row_times n_s A (st d t) k = rsum n_s (fun l => A k l * d t l).
  Proof.
    intros. unfold row_times. apply rsum_ext. intros l Hl. unfold PerfectForesight.st, slice.
    destruct (Nat.ltb_spec l n_s); [reflexivity|lia].
  Qed.

  Lemma ct_row : forall d t A k, row_times n_x A (ct d t) k = rsum n_x (fun l => A k l * d t (n_s + l)%nat).
  Proof.
    intros. unfold row_times. apply rsum_ext. intros l Hl. unfold PerfectForesight.ct, slice.
    destruct (Nat.ltb_spec l n_x); [reflexivity|lia].
  Qed.

  Lemma lim_affine : forall a b F, (forall h, F h = a + h * b) -> derivable_pt_lim F 0 b.
  Proof.
    intros a b F H. intros e He. exists (mkposreal 1 Rlt_0_1). intros h Hh _.
    rewrite !H. replace ((a + (0 + h) * b - (a + 0 * b)) / h - b) with 0 by (field; assumption).
    rewrite Rabs_R0. exact He.
  Qed.

  Lemma lim_ext : forall F G x l, (forall h, F h = G h) -> derivable_pt_lim G x l -> derivable_pt_lim F x l.
  Proof. intros F G x l H D e He. destruct (D e He) as [del Hd]. exists del. intros h. rewrite !H. apply Hd. Qed.

  Ltac zero := apply rsum_0; intros; 
    match goal with |- ?a * _ = 0 => replace a with 0; [ring|] end.

  Lemma det_jac_derivative :
    transition_derivatives n_s n_x g g_s g_x ->
    arbitrage_derivatives n_s n_x f f_s f_x f_S f_X ->
    forall N Nsh guess start m r J,
      det_residual n_s n_x g f g_s g_x f_s f_x f_S f_X N Nsh guess start m = Ok (r, J) ->
      forall d i k, (i < N)%nat -> (k < n)%nat ->
      derivable_pt_lim (fun h => det_res N (fun t q => guess t q + h * d t q) start m i k) 0
        (rsum N (fun j => rsum n (fun l => J i k j l * d j l))).
  Proof.
    intros Dg Df N Nsh guess start m r J HR d i k Hi Hk. unfold det_residual in HR.
    destruct (Nat.eqb N Nsh); cbn [negb] in HR; [|discriminate].
    destruct (Nat.ltb_spec N 2) as [|HN]; [discriminate|]. injection HR as _ <-.
    set (SUM := rsum N _).
    assert (ESUM : SUM = rsum N (fun j => rsum n (fun l => jac_form N guess m i k j l * d j l))).
    { unfold SUM. apply rsum_ext. intros j Hj. apply rsum_ext. intros l Hl.
      rewrite det_jac_entry by lia. reflexivity. }
    rewrite ESUM. clear SUM ESUM.
    destruct (Nat.lt_ge_cases k n_s) as [Ks|Ks].
    - destruct i as [|t].
      + (* initial condition *)
        rewrite (rsum_single N 0) by
          first [lia | intros j Hj NE; apply rsum_0; intros l Hl; unfold jac_form; ltbs; ring].
        rewrite (rsum_single n k) by
          first [lia | intros l Hl NE; unfold jac_form, eye; ltbs; ring].
        unfold jac_form, eye. ltbs.
        apply (lim_affine (- (guess 0%nat k - start k))). intros h. rewrite det_res_start by lia. ring.
      + (* transition *)
        rewrite (rsum_two N t (S t)) by
          first [lia | intros j Hj N1 N2; apply rsum_0; intros l Hl; unfold jac_form, loop_form; ltbs; ring].
        assert (E2 : rsum n (fun l => jac_form N guess m (S t) k (S t) l * d (S t) l) = - d (S t) k).
        { rewrite (rsum_single n k) by
            first [lia | intros l Hl NE; unfold jac_form, loop_form, eye; ltbs; ring].
          unfold jac_form, loop_form, eye. ltbs. ring. }
        rewrite E2, rsum_split.
        eapply lim_ext.
        { intros h. rewrite det_res_transition by lia. rewrite st_moved, ct_moved. reflexivity. }
        replace (rsum n_s _ + rsum n_x _ + - d (S t) k)
          with (row_times n_s (g_s (m t) (st guess t) (ct guess t) (m (S t))) (st d t) k +
                row_times n_x (g_x (m t) (st guess t) (ct guess t) (m (S t))) (ct d t) k - d (S t) k).
        * apply (derivable_pt_lim_minus
                   (fun h => g (m t) (moved (st guess t) (st d t) h) (moved (ct guess t) (ct d t) h) (m (S t)) k)
                   (fun h => guess (S t) k + h * d (S t) k)).
          { apply Dg. exact Ks. }
          { apply (lim_affine (guess (S t) k)). intros; ring. }
        * rewrite st_row, ct_row. unfold Rminus. f_equal. f_equal.
          { apply rsum_ext. intros l Hl. unfold jac_form, loop_form. ltbs. reflexivity. }
          { apply rsum_ext. intros l Hl. unfold jac_form, loop_form. ltbs.
            replace (n_s + l - n_s)%nat with l by lia. reflexivity. }
    - replace k with (n_s + (k - n_s))%nat by lia. set (q := (k - n_s)%nat).
      assert (Hq : (q < n_x)%nat) by (unfold q; lia).
      assert (Eq : (n_s + q - n_s = q)%nat) by lia.
      destruct (Nat.lt_ge_cases (S i) N) as [Hi1|Hi1].
      + rewrite (rsum_two N i (S i)) by
          first [lia | intros j Hj N1 N2; apply rsum_0; intros l Hl; unfold jac_form, loop_form; ltbs; ring].
        rewrite !rsum_split.
        eapply lim_ext.
        { intros h. rewrite det_res_arbitrage by lia. rewrite !st_moved, !ct_moved. reflexivity. }
        match goal with |- derivable_pt_lim _ _ ?v => replace v with
          (row_times n_s (f_s (m i) (st guess i) (ct guess i) (m (S i)) (st guess (S i)) (ct guess (S i))) (st d i) q +
           row_times n_x (f_x (m i) (st guess i) (ct guess i) (m (S i)) (st guess (S i)) (ct guess (S i))) (ct d i) q +
           row_times n_s (f_S (m i) (st guess i) (ct guess i) (m (S i)) (st guess (S i)) (ct guess (S i))) (st d (S i)) q +
           row_times n_x (f_X (m i) (st guess i) (ct guess i) (m (S i)) (st guess (S i)) (ct guess (S i))) (ct d (S i)) q) end.
        * apply Df. exact Hq.
        * rewrite !st_row, !ct_row. rewrite Rplus_assoc. f_equal; f_equal; apply rsum_ext; intros l Hl;
            unfold jac_form, loop_form; ltbs; rewrite ?Eq;
            try replace (n_s + l - n_s)%nat with l by lia; reflexivity.
      + replace i with (N - 1)%nat by lia.
        rewrite (rsum_two N (N - 1) (N - 2)) by
          first [lia | intros j Hj N1 N2; apply rsum_0; intros l Hl; unfold jac_form; ltbs; ring].
        rewrite (rsum_single n (n_s + q)) by
          first [lia | intros l Hl NE; unfold jac_form, eye; ltbs; ring].
        rewrite (rsum_single n (n_s + q) (fun l => jac_form N guess m (N - 1) (n_s + q) (N - 2) l * d (N - 2)%nat l)) by
          first [lia | intros l Hl NE; unfold jac_form, eye; ltbs; ring].
        unfold jac_form, eye. ltbs.
        apply (lim_affine (- (guess (N - 1)%nat (n_s + q)%nat - guess (N - 2)%nat (n_s + q)%nat))).
        intros h. rewrite det_res_end by lia. ring.
  Qed.
End PF.
