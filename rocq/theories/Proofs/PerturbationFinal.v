(** Proofs on first-order perturbation: the solver, its check, the rule. *)
From Coq Require Import String Reals List Arith Lia Lra Bool.
From Verif.Base Require Import Prelude Ext Sums.
From Verif.Spec Require Import LinearAlgebra Perturbation.
From Verif.Model Require Import DecisionRule Perturbation.
From Verif.Proofs Require Import GaussFinal MatrixAlgebra PerturbationProofs.
Import ListNotations.
Open Scope R_scope.

(** ** Sorted eigenvalues *)

Lemma ext_leb_total : forall a b, ext_leb a b = true \/ ext_leb b a = true.
Proof.
  intros [|x|] [|y|]; cbn; auto. destruct (Rle_dec x y); [auto|]. destruct (Rle_dec y x); [auto|lra].
Qed.
Lemma ext_leb_trans : forall a b c, ext_leb a b = true -> ext_leb b c = true -> ext_leb a c = true.
Proof.
  intros [|x|] [|y|] [|z|]; cbn; try congruence.
  destruct (Rle_dec x y); [|congruence]. destruct (Rle_dec y z); [|congruence]. destruct (Rle_dec x z); [reflexivity|lra].
Qed.

Fixpoint ascending (l : list ext) : Prop :=
  match l with
  | [] => True
  | a :: l' => (match l' with [] => True | b :: _ => ext_leb a b = true end) /\ ascending l'
  end.

Lemma insert_ascending : forall l a, ascending l -> ascending (insert a l).
Proof.
  induction l as [|b l IH]; intros a H; [cbn; auto|]. cbn [insert].
  destruct (ext_leb a b) eqn:E.
  - split; [exact E|exact H].
  - assert (Hba : ext_leb b a = true) by (destruct (ext_leb_total a b); congruence).
    destruct l as [|c l].
    + cbn. auto.
    + destruct H as (Hbc & Hl). specialize (IH a Hl).
      cbn [insert] in *. destruct (ext_leb a c) eqn:E2.
      * split; [exact Hba|exact IH].
      * split; [exact Hbc|exact IH].
Qed.
Lemma sorted_ascending : forall l, ascending (sorted l).
Proof. induction l as [|a l IH]; [exact I|apply insert_ascending, IH]. Qed.

Lemma ascending_nth : forall l k a b, ascending l -> nth_error l k = Some a -> nth_error l (S k) = Some b ->
    ext_leb a b = true.
Proof.
  induction l as [|c l IH]; intros k a b H Ha Hb; [destruct k; discriminate|].
  destruct l as [|d l]; [destruct k as [|k]; cbn in Hb; [discriminate|destruct k; discriminate]|].
  destruct H as (Hcd & Hl). destruct k as [|k].
  - cbn in Ha, Hb. congruence.
  - exact (IH k a b Hl Ha Hb).
Qed.

(** ** What the solver does *)

Section Run.
  Variable qz : nat -> matR -> matR -> R -> res (matR * matR * matR * matR).
  Variable solve : nat -> matR -> (nat -> R) -> res (nat -> R).

  (** The second call of qzordered is never made: either the test passes, or an exception is raised. *)
  Lemma approximate_cases : forall n m d r,
      approximate_1st_order qz solve n m d = r ->
      match r with
      | Ok (C, ev) =>
          exists SS TT QQ ZZ, qz (n + m)%nat (lead n (f_S d) (f_X d)) (lag n (g_s d) (g_x d) (f_s d) (f_x d)) (1 - 1 / 10 ^ 8) = Ok (SS, TT, QQ, ZZ) /\
            pairs_ok (n + m) SS TT = true /\
            bk_check n m (eigval SS TT) = Ok true /\
            rule_matrix solve n m ZZ = Ok C /\
            ev = sorted (map (eigval SS TT) (seq 0 (n + m)))
      | Err _ => True
      end.
  Proof.
    intros n m d r E. destruct r as [[C ev]|e]; [|exact I].
    unfold approximate_1st_order in E.
    match type of E with bind (qz _ ?a ?b _) _ = _ =>
      change a with (lead n (f_S d) (f_X d)) in E; change b with (lag n (g_s d) (g_x d) (f_s d) (f_x d)) in E end.
    destruct (qz _ _ _ (1 - 1 / 10 ^ 8)) as [[[[SS TT] QQ] ZZ]|e]; [|discriminate]. cbn [bind] in E.
    destruct (pairs_ok (n + m) SS TT) eqn:Ep; cbn [negb] in E; [|discriminate].
    destruct (bk_check n m (eigval SS TT)) as [b|e] eqn:Eb; [|discriminate]. cbn [bind] in E.
    destruct b.
    - destruct (rule_matrix solve n m ZZ) as [C'|e] eqn:Er; [|discriminate]. cbn [bind] in E. injection E as <- <-.
      exists SS, TT, QQ, ZZ. repeat split; auto.
    - exfalso.
      set (l := sorted (map (eigval SS TT) (seq 0 (n + m)))) in *.
      destruct n as [|n']; [discriminate Eb|].
      replace (S n' - 1)%nat with n' in E by lia.
      destruct (nth_error l n') as [a|] eqn:Ea; [|discriminate].
      destruct (nth_error l (S n')) as [b|] eqn:Eb'; [|discriminate].
      pose proof (ascending_nth l n' a b (sorted_ascending _) Ea Eb') as Hab.
      unfold ext_ltb in E. rewrite Hab in E. cbn [negb] in E. discriminate.
  Qed.

  Lemma rule_matrix_spec : forall n m Z C, exact_solver solve -> (0 < m)%nat -> rule_matrix solve n m Z = Ok C ->
      (forall i j, (i < m)%nat -> (j < n)%nat -> mat_mul n C Z i j = Z (n + i)%nat j) /\
      exists V, is_inverse n Z V.
  Proof.
    intros n m Z C Hex Hm H. unfold rule_matrix in H.
    assert (Hrows : forall i, (i < m)%nat ->
              solve n (fun a b => Z b a) (fun j => Z (n + i)%nat j) = Ok (C i)).
    { refine (for_range_res_inv (fun k (C : matR) => forall i, (i < k)%nat ->
                solve n (fun a b => Z b a) (fun j => Z (n + i)%nat j) = Ok (C i)) _ _ _ _ _ _ H).
      - intros i Hi. lia.
      - intros k acc acc' Hk IH E.
        destruct (solve n (fun a b => Z b a) (fun j => Z (n + k)%nat j)) as [c|e] eqn:Ec; [|discriminate].
        cbn [bind] in E. injection E as <-. intros i Hi.
        destruct (Nat.eq_dec i k) as [->|Hne].
        + unfold upd. rewrite Nat.eqb_refl. exact Ec.
        + unfold upd. destruct (Nat.eqb_spec i k); [contradiction|]. apply IH. lia. }
    split.
    - intros i j Hi Hj. destruct (Hex _ _ _ _ (Hrows i Hi)) as (Hs & _). specialize (Hs j Hj).
      rewrite <- Hs. apply rsum_ext. intros k _. ring.
    - destruct (Hex _ _ _ _ (Hrows 0%nat Hm)) as (Hs & Hu).
      assert (Hn : ~ singular n (fun a b => Z b a)).
      { intros (z & (i & Hi & Hne) & Hz). apply Hne.
        pose proof (Hu (fun k => C 0%nat k + z k)) as Hu'. cbv beta in Hu'.
        assert (E : C 0%nat i + z i = C 0%nat i).
        { apply Hu'; [|exact Hi]. intros a Ha. rewrite <- (Hs a Ha). unfold mat_vec.
          rewrite (rsum_ext n _ (fun j => Z j a * C 0%nat j + Z j a * z j)) by (intros; ring).
          rewrite rsum_plus. specialize (Hz a Ha). unfold mat_vec in Hz. rewrite Hz. ring. }
        lra. }
      destruct (inverse_exists n _ Hn) as (V & HV). exists (transpose V).
      apply inverse_transpose in HV. exact HV.
  Qed.

  Lemma bk_pass : forall n m ev, bk_check n m ev = Ok true ->
      (exists i, (i < n)%nat /\ ext_leb (Fin 1) (ev i) = true) /\
      (exists i, (n <= i)%nat /\ (i < n + m)%nat /\ ext_ltb (ev i) (Fin 1) = true).
  Proof.
    intros n m ev H. unfold bk_check in H. destruct (Nat.eqb n 0); [discriminate|].
    destruct (some_above ev (seq 0 n)) eqn:Ea; [|discriminate].
    destruct (Nat.eqb m 0); [discriminate|]. injection H as H.
    unfold some_above in Ea. apply existsb_exists in Ea. destruct Ea as (i & Hi & Ei). apply in_seq in Hi.
    unfold some_below in H. apply existsb_exists in H. destruct H as (k & Hk & Ek). apply in_seq in Hk.
    split; [exists i|exists k]; repeat split; auto; lia.
  Qed.

  Lemma bk_fail : forall n m ev,
      (forall i, (i < n)%nat -> ext_ltb (ev i) (Fin 1) = true) \/
      (forall i, (n <= i)%nat -> (i < n + m)%nat -> ext_leb (Fin 1) (ev i) = true) ->
      bk_check n m ev <> Ok true.
  Proof.
    intros n m ev H E. apply bk_pass in E. destruct E as ((i & Hi & Ei) & (k & Hk1 & Hk2 & Ek)).
    destruct H as [H|H].
    - specialize (H i Hi). unfold ext_ltb in H. rewrite Ei in H. discriminate.
    - specialize (H k Hk1 Hk2). unfold ext_ltb in Ek. rewrite H in Ek. discriminate.
  Qed.

  (** The returned matrix solves the linearised model. *)
  Lemma approximate_solves : forall n m d C ev SS TT QQ ZZ,
      exact_solver solve ->
      approximate_1st_order qz solve n m d = Ok (C, ev) ->
      qz (n + m)%nat (lead n (f_S d) (f_X d)) (lag n (g_s d) (g_x d) (f_s d) (f_x d)) (1 - 1 / 10 ^ 8) = Ok (SS, TT, QQ, ZZ) ->
      generalized_schur (n + m) (lead n (f_S d) (f_X d)) (lag n (g_s d) (g_x d) (f_s d) (f_x d)) SS TT QQ ZZ ->
      splits_at n (n + m) SS -> splits_at n (n + m) TT -> ~ singular n SS ->
      solves_linear_model n m (g_s d) (g_x d) (f_s d) (f_x d) (f_S d) (f_X d) C /\
      (upper_triangular (n + m) SS -> upper_triangular (n + m) TT ->
       (forall i, (i < n)%nat -> stable_root SS TT i) -> converges n (motion m (g_s d) (g_x d) C)).
  Proof.
    intros n m d C ev SS TT QQ ZZ Hex E Eq Hqz HS HT Hns.
    apply approximate_cases in E. destruct E as (S' & T' & Q' & Z' & Eq' & _ & Hbk & Hr & _).
    rewrite Eq in Eq'. injection Eq' as <- <- <- <-.
    assert (Hm : (0 < m)%nat) by (apply bk_pass in Hbk; destruct Hbk as (_ & (k & ? & ? & _)); lia).
    destruct (rule_matrix_spec n m ZZ C Hex Hm Hr) as (HC & V & HV).
    split.
    - exact (solution_equation n m _ _ _ _ _ _ SS TT QQ ZZ C Hqz HS HT HC V HV Hns).
    - intros HtS HtT Hst s i Hi.
      set (P := motion m (g_s d) (g_x d) C).
      set (w := fun k => mat_vec n V (trajectory n P s k)).
      assert (Hw : forall j, (j < n)%nat -> Un_cv (fun k => w k j) 0).
      { apply (triangular_stable n SS TT).
        - intros a b Hab Ha. apply HtS; lia.
        - intros a b Hab Ha. apply HtT; lia.
        - exact Hst.
        - intros k a Ha. unfold w. cbn [trajectory].
          exact (dynamics n m _ _ _ _ _ _ SS TT QQ ZZ C Hqz HS HT HC V HV Hns (trajectory n P s k) a Ha). }
      apply (Un_cv_ext0 (fun k => rsum n (fun j => ZZ i j * w k j))).
      + intros k. unfold w. change (mat_vec n ZZ (mat_vec n V (trajectory n P s k)) i = trajectory n P s k i).
        rewrite <- mat_vec_mul. apply mat_vec_eye_l; [exact Hi|exact (proj1 HV)].
      + apply (Un_cv_sum0 n (fun j k => ZZ i j * w k j)). intros j Hj. apply (Un_cv_scal0 (ZZ i j) (fun k => w k j)), Hw, Hj.
  Qed.
End Run.

(** ** Uniqueness of the non-explosive solution *)

Section Unique.
  Variables n m : nat.
  Variables gs gx fs fx fS fX : nat -> nat -> R.
  Variables SS TT QQ ZZ C D : nat -> nat -> R.
  Hypothesis Hqz : generalized_schur (n + m) (lead n fS fX) (lag n gs gx fs fx) SS TT QQ ZZ.
  Hypothesis HS : upper_triangular (n + m) SS.
  Hypothesis HT : upper_triangular (n + m) TT.
  Hypothesis Hun : forall i, (n <= i)%nat -> (i < n + m)%nat -> unstable_root SS TT i.
  Hypothesis HC : forall i j, (i < m)%nat -> (j < n)%nat -> mat_mul n C ZZ i j = ZZ (n + i)%nat j.
  Hypothesis HD : solves_linear_model n m gs gx fs fx fS fX D.
  Hypothesis Hne : nonexplosive n (motion m gs gx D).

  Let N := (n + m)%nat.
  Let P := motion m gs gx D.
  (** (s, x) under the rule D. *)
  Let X : nat -> nat -> R := fun i j => if Nat.ltb i n then eye i j else D (i - n)%nat j.
  Let A := lead n fS fX.
  Let B := lag n gs gx fs fx.
  Let Zt : nat -> nat -> R := fun a b => ZZ b a.
  Let Qt : nat -> nat -> R := fun a b => QQ b a.
  Let Y := mat_mul N Zt X.

  Lemma X_top : forall F i j, (j < n)%nat -> mat_mul N F X i j = F i j + mat_mul m (fun a b => F a (n + b)%nat) D i j.
  Proof.
    intros F i j Hj. unfold N. rewrite mat_mul_split. f_equal.
    - rewrite (mat_mul_ext n F F X eye).
      + apply mat_mul_eye_r; [exact Hj|reflexivity].
      + reflexivity.
      + intros k Hk. unfold X. rewrite (proj2 (Nat.ltb_lt k n)) by lia. reflexivity.
    - apply mat_mul_ext; [reflexivity|]. intros k Hk. unfold X.
      rewrite (proj2 (Nat.ltb_ge (n + k) n)) by lia. replace (n + k - n)%nat with k by lia. reflexivity.
  Qed.

  Lemma pencil_X : forall i j, (i < N)%nat -> (j < n)%nat -> mat_mul N B X i j = mat_mul n (mat_mul N A X) P i j.
  Proof.
    intros i j Hi Hj. rewrite X_top by exact Hj.
    destruct (lt_dec i n) as [Hin|Hin].
    - rewrite (mat_mul_ext n (mat_mul N A X) eye P P).
      + rewrite (mat_mul_eye_l n P eye i j); [|exact Hin|reflexivity]. unfold P, motion, B, lag.
        rewrite (proj2 (Nat.ltb_lt i n)), (proj2 (Nat.ltb_lt j n)) by lia. f_equal.
        apply rsum_ext. intros k Hk. rewrite (proj2 (Nat.ltb_lt i n)), (proj2 (Nat.ltb_ge (n + k) n)) by lia.
        replace (n + k - n)%nat with k by lia. reflexivity.
      + intros k Hk. rewrite X_top by exact Hk. rewrite mat_mul_0_l.
        * unfold A, lead. rewrite (proj2 (Nat.ltb_lt i n)), (proj2 (Nat.ltb_lt k n)) by lia. ring.
        * intros q Hq. unfold A, lead. rewrite (proj2 (Nat.ltb_lt i n)), (proj2 (Nat.ltb_ge (n + q) n)) by lia. reflexivity.
      + reflexivity.
    - unfold N in Hi. set (i' := (i - n)%nat).
      assert (Ei : i = (n + i')%nat) by (unfold i'; lia).
      assert (Hi' : (i' < m)%nat) by (unfold i'; lia).
      specialize (HD i' j Hi' Hj). fold P in HD.
      assert (E1 : B i j + mat_mul m (fun a b => B a (n + b)%nat) D i j = fs i' j + mat_mul m fx D i' j).
      { unfold B, lag. rewrite (proj2 (Nat.ltb_ge i n)), (proj2 (Nat.ltb_lt j n)) by lia. fold i'. f_equal.
        apply rsum_ext. intros k Hk. rewrite (proj2 (Nat.ltb_ge i n)), (proj2 (Nat.ltb_ge (n + k) n)) by lia.
        fold i'. replace (n + k - n)%nat with k by lia. reflexivity. }
      rewrite E1.
      assert (E2 : mat_mul n (mat_mul N A X) P i j = - mat_mul n (fun a b => fS a b + mat_mul m fX D a b) P i' j).
      { rewrite <- mat_mul_opp_l. unfold mat_mul at 1 3. apply rsum_ext. intros k Hk. f_equal.
        rewrite X_top by exact Hk. unfold A, lead.
        rewrite (proj2 (Nat.ltb_ge i n)), (proj2 (Nat.ltb_lt k n)) by lia. fold i'.
        rewrite Ropp_plus_distr. f_equal. unfold mat_mul. rewrite <- rsum_opp. apply rsum_ext. intros q Hq.
        rewrite (proj2 (Nat.ltb_ge i n)), (proj2 (Nat.ltb_ge (n + q) n)) by lia.
        fold i'. replace (n + q - n)%nat with q by lia. ring. }
      rewrite E2. lra.
  Qed.

  (** Q' F = U Z' for F = Q U Z'. *)
  Lemma Qt_cancel : forall F U, (forall i j, (i < N)%nat -> (j < N)%nat -> F i j = mat_mul N (mat_mul N QQ U) (fun a b => ZZ b a) i j) ->
      forall i j, (i < N)%nat -> mat_mul N Qt (mat_mul N F X) i j = mat_mul N U Y i j.
  Proof.
    intros F U HF i j Hi. unfold Y.
    transitivity (mat_mul N Qt (mat_mul N (mat_mul N (mat_mul N QQ U) Zt) X) i j).
    - apply mat_mul_ext; [reflexivity|]. intros k Hk. apply mat_mul_ext; [|reflexivity]. intros q Hq. apply HF; assumption.
    - transitivity (mat_mul N Qt (mat_mul N QQ (mat_mul N U (mat_mul N Zt X))) i j).
      + apply mat_mul_ext; [reflexivity|]. intros k Hk. rewrite !mat_mul_assoc. reflexivity.
      + rewrite <- mat_mul_assoc. apply mat_mul_eye_l; [exact Hi|]. exact (schur_Q _ _ _ _ _ _ _ Hqz).
  Qed.

  Lemma Y_recursion : forall i j, (i < N)%nat -> (j < n)%nat -> mat_mul N TT Y i j = mat_mul n (mat_mul N SS Y) P i j.
  Proof.
    intros i j Hi Hj. rewrite <- (Qt_cancel B TT (schur_B _ _ _ _ _ _ _ Hqz)) by exact Hi.
    transitivity (mat_mul N Qt (mat_mul n (mat_mul N A X) P) i j).
    - apply mat_mul_ext; [reflexivity|]. intros k Hk. apply pencil_X; assumption.
    - rewrite <- mat_mul_assoc. apply mat_mul_ext; [|reflexivity]. intros k Hk.
      apply (Qt_cancel A SS (schur_A _ _ _ _ _ _ _ Hqz)). exact Hi.
  Qed.

  Lemma Y_bottom : forall i j, (n <= i)%nat -> (i < N)%nat -> (j < n)%nat -> Y i j = 0.
  Proof.
    intros i j Hn Hi Hj.
    set (s := fun k => eye k j).
    set (y := fun k a => mat_vec n Y (trajectory n P s k) a).
    assert (H0 : y 0%nat i = 0).
    { apply (triangular_unstable n m SS TT y HS HT Hun); [| |exact Hn|exact Hi].
      - intros k a Ha1 Ha2. unfold y. cbn [trajectory].
        change (mat_vec (n + m) TT (mat_vec n Y (trajectory n P s k)) a =
                mat_vec (n + m) SS (mat_vec n Y (mat_vec n P (trajectory n P s k))) a).
        rewrite <- !mat_vec_mul. apply rsum_ext. intros b Hb. f_equal.
        apply Y_recursion; assumption.
      - intros a Ha1 Ha2. unfold y.
        assert (HM : forall q, (q <= n)%nat -> exists M, forall t, Rabs (rsum q (fun b => Y a b * trajectory n P s t b)) <= M).
        { induction q as [|q IH]; intros Hq.
          - exists 0. intros t. cbn. rewrite Rabs_R0. lra.
          - destruct (IH ltac:(lia)) as (M1 & HM1). destruct (Hne s q ltac:(lia)) as (M2 & HM2).
            exists (M1 + Rabs (Y a q) * M2). intros t. cbn [rsum].
            eapply Rle_trans; [apply Rabs_triang|]. apply Rplus_le_compat; [apply HM1|].
            rewrite Rabs_mult. apply Rmult_le_compat_l; [apply Rabs_pos|apply HM2]. }
        exact (HM n (le_n n)). }
    unfold y in H0. cbn [trajectory] in H0. rewrite <- H0. unfold mat_vec, s.
    symmetry. apply (mat_mul_eye_r n Y eye i j Hj). reflexivity.
  Qed.

  Lemma unique_rule : forall i j, (i < m)%nat -> (j < n)%nat -> D i j = C i j.
  Proof.
    assert (HX : forall i j, (i < N)%nat -> (j < n)%nat -> X i j = mat_mul n ZZ Y i j).
    { intros i j Hi Hj. transitivity (mat_mul N ZZ Y i j).
      - unfold Y. rewrite <- mat_mul_assoc. symmetry. apply mat_mul_eye_l; [exact Hi|].
        exact (proj2 (orthogonal_inverse N ZZ (schur_Z _ _ _ _ _ _ _ Hqz))).
      - unfold N. rewrite mat_mul_split, Rplus_comm, mat_mul_0_r; [ring|].
        intros k Hk. apply Y_bottom; [lia|unfold N; lia|exact Hj]. }
    intros i j Hi Hj.
    transitivity (X (n + i)%nat j).
    { unfold X. rewrite (proj2 (Nat.ltb_ge (n + i) n)) by lia. f_equal. lia. }
    rewrite HX by (unfold N; lia).
    transitivity (mat_mul n (mat_mul n C ZZ) Y i j).
    - apply rsum_ext. intros k Hk. rewrite HC by assumption. reflexivity.
    - rewrite mat_mul_assoc. apply mat_mul_eye_r; [exact Hj|]. intros a b Ha Hb.
      rewrite <- HX by (unfold N; lia). unfold X. rewrite (proj2 (Nat.ltb_lt a n)) by lia. reflexivity.
  Qed.
End Unique.

(** ** Blanchard-Kahn conditions hold *)

Section BK.
  Variable qz : nat -> matR -> matR -> R -> res (matR * matR * matR * matR).
  Variable solve : nat -> matR -> (nat -> R) -> res (nat -> R).

  Lemma blanchard_kahn_case : forall n m d C ev SS TT QQ ZZ,
      exact_solver solve ->
      approximate_1st_order qz solve n m d = Ok (C, ev) ->
      qz (n + m)%nat (lead n (f_S d) (f_X d)) (lag n (g_s d) (g_x d) (f_s d) (f_x d)) (1 - 1 / 10 ^ 8) = Ok (SS, TT, QQ, ZZ) ->
      ordered_schur (n + m) (1 - 1 / 10 ^ 8) (lead n (f_S d) (f_X d)) (lag n (g_s d) (g_x d) (f_s d) (f_x d)) SS TT QQ ZZ ->
      blanchard_kahn n m SS TT ->
      solves_linear_model n m (g_s d) (g_x d) (f_s d) (f_x d) (f_S d) (f_X d) C /\
      converges n (motion m (g_s d) (g_x d) C) /\
      (forall D, solves_linear_model n m (g_s d) (g_x d) (f_s d) (f_x d) (f_S d) (f_X d) D ->
                 nonexplosive n (motion m (g_s d) (g_x d) D) ->
                 forall i j, (i < m)%nat -> (j < n)%nat -> D i j = C i j).
  Proof.
    intros n m d C ev SS TT QQ ZZ Hex E Eq [Hqz HS HT _] (Hst & Hun).
    assert (HS' : splits_at n (n + m) SS) by (intros i j H1 H2 H3; apply HS; lia).
    assert (HT' : splits_at n (n + m) TT) by (intros i j H1 H2 H3; apply HT; lia).
    assert (Hns : ~ singular n SS).
    { apply triangular_nonsingular.
      - intros i j H1 H2. apply HS; lia.
      - intros i Hi E0. specialize (Hst i Hi). unfold stable_root in Hst. rewrite E0, Rabs_R0 in Hst.
        pose proof (Rabs_pos (TT i i)). lra. }
    destruct (approximate_solves qz solve n m d C ev SS TT QQ ZZ Hex E Eq Hqz HS' HT' Hns) as (H1 & H2).
    split; [exact H1|]. split; [exact (H2 HS HT Hst)|].
    intros D HD Hne. apply approximate_cases in E. destruct E as (S' & T' & Q' & Z' & Eq' & _ & Hbk & Hr & _).
    rewrite Eq in Eq'. injection Eq' as <- <- <- <-.
    assert (Hm : (0 < m)%nat) by (apply bk_pass in Hbk; destruct Hbk as (_ & (k & ? & ? & _)); lia).
    destruct (rule_matrix_spec solve n m ZZ C Hex Hm Hr) as (HC & V & HV).
    exact (unique_rule n m _ _ _ _ _ _ SS TT QQ ZZ C D Hqz HS HT Hun HC HD Hne).
  Qed.

  Lemma eigval_above : forall S T i, ext_leb (Fin 1) (eigval S T i) = true -> Rabs (T i i) <= Rabs (S i i).
  Proof.
    intros S T i H. unfold eigval in H. destruct (Req_EM_T (T i i) 0) as [E|E].
    - rewrite E, Rabs_R0. apply Rabs_pos.
    - cbn in H. destruct (Rle_dec 1 (Rabs (S i i / T i i))) as [Hl|]; [|discriminate].
      unfold Rdiv in Hl. rewrite Rabs_mult, Rabs_inv in Hl.
      assert (Hp : 0 < Rabs (T i i)) by (apply Rabs_pos_lt, E).
      apply (Rmult_le_compat_r (Rabs (T i i))) in Hl; [|lra].
      rewrite Rmult_assoc, Rinv_l, Rmult_1_l, Rmult_1_r in Hl by lra. exact Hl.
  Qed.
  Lemma eigval_below : forall S T i, ext_ltb (eigval S T i) (Fin 1) = true -> unstable_root S T i.
  Proof.
    intros S T i H. unfold eigval in H. destruct (Req_EM_T (T i i) 0) as [E|E].
    - discriminate.
    - unfold ext_ltb in H. cbn in H. destruct (Rle_dec 1 (Rabs (S i i / T i i))) as [Hl|Hl]; [discriminate|].
      unfold Rdiv in Hl. rewrite Rabs_mult, Rabs_inv in Hl.
      assert (Hp : 0 < Rabs (T i i)) by (apply Rabs_pos_lt, E).
      unfold unstable_root. apply Rnot_le_lt in Hl.
      apply (Rmult_lt_compat_r (Rabs (T i i))) in Hl; [|lra].
      rewrite Rmult_assoc, Rinv_l, Rmult_1_l, Rmult_1_r in Hl by lra. exact Hl.
  Qed.

  (** What a returned rule tells about the roots. *)
  Lemma returned_roots : forall n m d C ev SS TT QQ ZZ,
      approximate_1st_order qz solve n m d = Ok (C, ev) ->
      qz (n + m)%nat (lead n (f_S d) (f_X d)) (lag n (g_s d) (g_x d) (f_s d) (f_x d)) (1 - 1 / 10 ^ 8) = Ok (SS, TT, QQ, ZZ) ->
      (exists i, (i < n)%nat /\ ~ unstable_root SS TT i) /\
      (exists i, (n <= i)%nat /\ (i < n + m)%nat /\ unstable_root SS TT i).
  Proof.
    intros n m d C ev SS TT QQ ZZ E Eq. apply approximate_cases in E.
    destruct E as (S' & T' & Q' & Z' & Eq' & _ & Hbk & _ & _). rewrite Eq in Eq'. injection Eq' as <- <- <- <-.
    apply bk_pass in Hbk. destruct Hbk as ((i & Hi & Ei) & (k & Hk1 & Hk2 & Ek)). split.
    - exists i. split; [exact Hi|]. apply eigval_above in Ei. unfold unstable_root. lra.
    - exists k. repeat split; auto. apply eigval_below, Ek.
  Qed.
End BK.

(** ** Solver used in the examples *)

Lemma gauss_exact : exact_solver LinearSolve.gauss_solve.
Proof.
  intros n A b x H. pose proof (gauss_solve_correct n A b) as G. rewrite H in G. destruct G as (G1 & G2 & _). auto.
Qed.

Lemma rule_matrix_total : forall n m Z, ~ singular n (fun a b => Z b a) ->
    exists C, rule_matrix LinearSolve.gauss_solve n m Z = Ok C.
Proof.
  intros n m Z HZ. unfold rule_matrix. generalize (fun _ _ : nat => 0) as C0.
  induction m as [|m IH]; intros C0; [exists C0; reflexivity|].
  destruct (IH C0) as (C & HC). cbn [for_range_res]. rewrite HC. cbn [bind].
  pose proof (gauss_solve_correct n (fun a b => Z b a) (fun j => Z (n + m)%nat j)) as G.
  destruct (LinearSolve.gauss_solve _ _ _) as [c|e]; [|contradiction]. cbn [bind]. eexists. reflexivity.
Qed.

(** The solver on a given decomposition, when the test passes. *)
Lemma approximate_ok : forall n m d SS TT QQ ZZ,
    pairs_ok (n + m) SS TT = true -> bk_check n m (eigval SS TT) = Ok true -> ~ singular n (fun a b => ZZ b a) ->
    exists C ev, approximate_1st_order (fun _ _ _ _ => Ok (SS, TT, QQ, ZZ)) LinearSolve.gauss_solve n m d = Ok (C, ev) /\
      (forall i j, (i < m)%nat -> (j < n)%nat -> mat_mul n C ZZ i j = ZZ (n + i)%nat j).
Proof.
  intros n m d SS TT QQ ZZ Hp Hb HZ. destruct (rule_matrix_total n m ZZ HZ) as (C & HC).
  exists C, (sorted (map (eigval SS TT) (seq 0 (n + m)))). split.
  - unfold approximate_1st_order. cbn [bind]. rewrite Hp. cbn [negb]. rewrite Hb. cbn [bind]. rewrite HC. reflexivity.
  - assert (Hm : (0 < m)%nat) by (apply bk_pass in Hb; destruct Hb as (_ & (k & ? & ? & _)); lia).
    exact (proj1 (rule_matrix_spec _ n m ZZ C gauss_exact Hm HC)).
Qed.

(** An explosive model: s1' = s1 / 2, s2' = 2 s2, x' = 4 x. *)
Definition ex_diag3 (a b c : R) : matR := fun i j =>
  match i, j with 0%nat, 0%nat => a | 1%nat, 1%nat => b | 2%nat, 2%nat => c | _, _ => 0 end.
Definition ex_diag2 (a b : R) : matR := fun i j =>
  match i, j with 0%nat, 0%nat => a | 1%nat, 1%nat => b | _, _ => 0 end.
Definition ex_zero : matR := fun _ _ => 0.
Definition ex_explosive : derivatives :=
  Deriv (ex_diag2 (1/2) 2) ex_zero ex_zero ex_zero (fun _ _ => 4) ex_zero (fun _ _ => -1).
Definition ex_lag : matR := ex_diag3 (1/2) 2 4.

Ltac small := match goal with
  | H : (?i < 3)%nat |- _ => destruct i as [|[|[|i]]]; [| | |lia]
  | H : (?i < 2)%nat |- _ => destruct i as [|[|i]]; [| |lia]
  | H : (?i < 1)%nat |- _ => destruct i as [|i]; [|lia]
  end.

Lemma eye_orthogonal : forall n, orthogonal n eye.
Proof.
  intros n i j Hi Hj. rewrite (mat_mul_ext n _ eye eye eye).
  - apply mat_mul_eye_l; [exact Hi|reflexivity].
  - intros k _. unfold eye. rewrite Nat.eqb_sym. reflexivity.
  - reflexivity.
Qed.

Lemma eye_nonsingular' : forall n, ~ singular n eye.
Proof.
  intros n. apply triangular_nonsingular.
  - intros i j Hj Hi. unfold eye. destruct (Nat.eqb_spec i j); [lia|reflexivity].
  - intros i Hi. unfold eye. rewrite Nat.eqb_refl. lra.
Qed.
Lemma eye_nonsingular : forall n, ~ singular n (fun a b => eye b a).
Proof.
  intros n. apply triangular_nonsingular.
  - intros i j Hj Hi. unfold eye. destruct (Nat.eqb_spec j i); [lia|reflexivity].
  - intros i Hi. unfold eye. rewrite Nat.eqb_refl. lra.
Qed.

Lemma pairs_ok_ones : forall n T S, (forall i, (i < n)%nat -> S i i = 1) -> pairs_ok n S T = true.
Proof.
  intros n T S H. unfold pairs_ok. apply forallb_forall. intros i Hi. apply in_seq in Hi.
  rewrite H by lia. rewrite Rabs_R1. unfold tol_geneigvals. destruct (Rlt_dec 1 (1 / 10 ^ 10)) as [Hl|]; [|reflexivity].
  exfalso. assert (1 / 10 ^ 10 <= 1); [|lra]. apply (Rmult_le_reg_r (10 ^ 10)); [lra|]. unfold Rdiv.
  rewrite Rmult_assoc, Rinv_l; lra.
Qed.

Lemma eigval_fin : forall S T i v, T i i <> 0 -> Rabs (S i i / T i i) = v -> eigval S T i = Fin v.
Proof. intros S T i v H E. unfold eigval. destruct (Req_EM_T (T i i) 0); [contradiction|]. rewrite E. reflexivity. Qed.

Lemma explosive_schur : ordered_schur 3 (1 - 1 / 10 ^ 8)
    (lead 2 (f_S ex_explosive) (f_X ex_explosive))
    (lag 2 (g_s ex_explosive) (g_x ex_explosive) (f_s ex_explosive) (f_x ex_explosive))
    eye ex_lag eye eye.
Proof.
  split.
  - split; [| |apply eye_orthogonal|apply eye_orthogonal]; intros i j Hi Hj; repeat small;
      cbv -[Rplus Rmult Ropp Rinv IZR Rminus Rdiv]; lra.
  - intros i j Hij Hi. unfold eye. destruct (Nat.eqb_spec i j); [lia|reflexivity].
  - intros i j Hij Hi. destruct i as [|[|[|i]]]; try lia; destruct j as [|[|[|j]]]; try lia; reflexivity.
  - intros i j Hij Hj. unfold selected, eye. rewrite !Nat.eqb_refl. intros H.
    assert (Ei : i = 0%nat \/ (i = 1%nat /\ j = 2%nat)) by lia.
    destruct Ei as [->|(-> & ->)]; cbn in *; lra.
Qed.

Lemma explosive_run : exists C ev,
    approximate_1st_order (fun _ _ _ _ => Ok (eye, ex_lag, eye, eye)) LinearSolve.gauss_solve 2 1 ex_explosive = Ok (C, ev) /\
    ~ nonexplosive 2 (motion 1 (g_s ex_explosive) (g_x ex_explosive) C).
Proof.
  destruct (approximate_ok 2 1 ex_explosive eye ex_lag eye eye) as (C & ev & E & _).
  - apply pairs_ok_ones. intros i _. unfold eye. rewrite Nat.eqb_refl. reflexivity.
  - unfold bk_check. cbn [Nat.eqb seq].
    rewrite (proj2 (existsb_exists _ _ : some_above _ _ = true <-> _)).
    + f_equal. apply existsb_exists. exists 2%nat. split; [cbn; auto|].
      rewrite (eigval_fin _ _ _ (1/4)); [| |].
      * unfold ext_ltb. cbn. destruct (Rle_dec 1 (1 / 4)); [lra|reflexivity].
      * cbn. lra.
      * cbn. unfold eye. cbn. rewrite Rabs_pos_eq; lra.
    + exists 0%nat. split; [cbn; auto|]. rewrite (eigval_fin _ _ _ 2).
      * cbn. destruct (Rle_dec 1 2); [reflexivity|lra].
      * cbn. lra.
      * cbn. unfold eye. cbn. rewrite Rabs_pos_eq; lra.
  - apply eye_nonsingular.
  - exists C, ev. split; [exact E|]. intros H.
    destruct (H (fun i => eye i 1%nat) 1%nat ltac:(lia)) as (M & HM).
    assert (HP : forall t, trajectory 2 (motion 1 (g_s ex_explosive) (g_x ex_explosive) C) (fun i => eye i 1%nat) t 1%nat = 2 ^ t).
    { induction t as [|t IH]; [reflexivity|]. cbn [trajectory]. unfold mat_vec at 1. cbn [rsum].
      rewrite IH. unfold motion, mat_mul. cbn. unfold ex_zero. ring. }
    destruct (archimed M) as (Ha & _).
    set (k := Z.to_nat (up M)).
    specialize (HM (S k)). rewrite HP in HM. rewrite Rabs_pos_eq in HM by (apply pow_le; lra).
    assert (Hk : INR k < 2 ^ S k).
    { clear. induction k as [|k IH]; [cbn; lra|]. rewrite S_INR. cbn [pow] in *. assert (1 <= 2 ^ k) by (apply pow_R1_Rle; lra). lra. }
    assert (HIZ : IZR (up M) <= INR k).
    { unfold k. destruct (Z_le_gt_dec 0 (up M)).
      - rewrite INR_IZR_INZ, Z2Nat.id by assumption. lra.
      - apply Rle_trans with 0; [apply IZR_le; lia|apply pos_INR]. }
    lra.
Qed.

(** An indeterminate model: s' = x1, x1' = -1/4 s + 13/12 x1, x2' = 4 x2: roots 3/4, 1/3 and 4. *)
Definition ex_indet : derivatives :=
  Deriv ex_zero (fun _ j => if Nat.eqb j 0 then 1 else 0) ex_zero
        (fun i _ => if Nat.eqb i 0 then - 1/4 else 0) (ex_diag2 (13/12) 4) ex_zero (ex_diag2 (-1) (-1)).
Definition ex_rot : matR := fun i j =>
  match i, j with
  | 0%nat, 0%nat => 4/5 | 0%nat, 1%nat => - 3/5 | 1%nat, 0%nat => 3/5 | 1%nat, 1%nat => 4/5 | 2%nat, 2%nat => 1 | _, _ => 0
  end.
Definition ex_T : matR := fun i j =>
  match i, j with
  | 0%nat, 0%nat => 3/4 | 0%nat, 1%nat => 5/4 | 1%nat, 1%nat => 1/3 | 2%nat, 2%nat => 4 | _, _ => 0
  end.

Lemma indet_schur : ordered_schur 3 (1 - 1 / 10 ^ 8)
    (lead 1 (f_S ex_indet) (f_X ex_indet))
    (lag 1 (g_s ex_indet) (g_x ex_indet) (f_s ex_indet) (f_x ex_indet))
    eye ex_T ex_rot ex_rot.
Proof.
  split.
  - split; intros i j Hi Hj; repeat small;
      cbv -[Rplus Rmult Ropp Rinv IZR Rminus Rdiv]; lra.
  - intros i j Hij Hi. unfold eye. destruct (Nat.eqb_spec i j); [lia|reflexivity].
  - intros i j Hij Hi. destruct i as [|[|[|i]]]; try lia; destruct j as [|[|[|j]]]; try lia; reflexivity.
  - intros i j Hij Hj. unfold selected, eye. rewrite !Nat.eqb_refl. intros H.
    assert (Ei : i = 0%nat \/ (i = 1%nat /\ j = 2%nat)) by lia.
    destruct Ei as [->|(-> & ->)]; cbn in *; lra.
Qed.

Lemma scalar_trajectory : forall P s t, trajectory 1 P s t 0%nat = P 0%nat 0%nat ^ t * s 0%nat.
Proof.
  intros P s t. induction t as [|t IH]; [cbn; ring|]. cbn [trajectory]. unfold mat_vec at 1. cbn [rsum]. rewrite IH. cbn. ring.
Qed.
Lemma scalar_converges : forall P, Rabs (P 0%nat 0%nat) < 1 -> converges 1 P.
Proof.
  intros P HP s i Hi. assert (i = 0%nat) by lia. subst i. intros eps He.
  destruct (abs_pow_small (P 0%nat 0%nat) eps (Rabs (s 0%nat)) HP He) as (K & HK).
  exists K. intros t Ht. unfold R_dist. rewrite Rminus_0_r, scalar_trajectory, Rabs_mult, <- RPow_abs. apply HK. lia.
Qed.

Lemma indet_run : exists C ev D,
    approximate_1st_order (fun _ _ _ _ => Ok (eye, ex_T, ex_rot, ex_rot)) LinearSolve.gauss_solve 1 2 ex_indet = Ok (C, ev) /\
    solves_linear_model 1 2 (g_s ex_indet) (g_x ex_indet) (f_s ex_indet) (f_x ex_indet) (f_S ex_indet) (f_X ex_indet) D /\
    converges 1 (motion 2 (g_s ex_indet) (g_x ex_indet) C) /\
    converges 1 (motion 2 (g_s ex_indet) (g_x ex_indet) D) /\
    D 0%nat 0%nat <> C 0%nat 0%nat.
Proof.
  destruct (approximate_ok 1 2 ex_indet eye ex_T ex_rot ex_rot) as (C & ev & E & HC).
  - apply pairs_ok_ones. intros i _. unfold eye. rewrite Nat.eqb_refl. reflexivity.
  - unfold bk_check. cbn [Nat.eqb seq].
    rewrite (proj2 (existsb_exists _ _ : some_above _ _ = true <-> _)).
    + f_equal. apply existsb_exists. exists 2%nat. split; [cbn; auto|].
      rewrite (eigval_fin _ _ _ (1/4)); [| |].
      * unfold ext_ltb. cbn. destruct (Rle_dec 1 (1 / 4)); [lra|reflexivity].
      * cbn. lra.
      * cbn. unfold eye. cbn. rewrite Rabs_pos_eq; lra.
    + exists 0%nat. split; [cbn; auto|]. rewrite (eigval_fin _ _ _ (4/3)).
      * cbn. destruct (Rle_dec 1 (4 / 3)); [reflexivity|lra].
      * cbn. lra.
      * cbn. unfold eye. cbn. rewrite Rabs_pos_eq; lra.
  - apply triangular_nonsingular.
    + intros i j Hj Hi. lia.
    + intros i Hi. small. cbn. lra.
  - assert (EC : C 0%nat 0%nat = 3/4).
    { specialize (HC 0%nat 0%nat ltac:(lia) ltac:(lia)). unfold mat_mul in HC. cbn in HC. lra. }
    exists C, ev, (fun i _ => if Nat.eqb i 0 then 1/3 else 0). split; [exact E|]. split; [|split; [|split]].
    + intros i j Hi Hj. repeat small; cbv -[Rplus Rmult Ropp Rinv IZR Rminus Rdiv]; lra.
    + apply scalar_converges. unfold motion, mat_mul. cbn. rewrite EC. unfold ex_zero.
      match goal with |- Rabs ?v < 1 => replace v with (3/4) by lra end. rewrite Rabs_pos_eq; lra.
    + apply scalar_converges. unfold motion, mat_mul. cbn. unfold ex_zero.
      match goal with |- Rabs ?v < 1 => replace v with (1/3) by lra end. rewrite Rabs_pos_eq; lra.
    + cbn. rewrite EC. lra.
Qed.

(** A saddle path: s' = s / 2, x' = 4 x. *)
Definition ex_saddle : derivatives :=
  Deriv (fun _ _ => 1/2) ex_zero ex_zero ex_zero (fun _ _ => 4) ex_zero (fun _ _ => -1).
Lemma saddle_run : exists C ev,
    approximate_1st_order (fun _ _ _ _ => Ok (eye, ex_diag2 (1/2) 4, eye, eye)) LinearSolve.gauss_solve 1 1 ex_saddle = Ok (C, ev) /\
    ordered_schur 2 (1 - 1 / 10 ^ 8) (lead 1 (f_S ex_saddle) (f_X ex_saddle))
      (lag 1 (g_s ex_saddle) (g_x ex_saddle) (f_s ex_saddle) (f_x ex_saddle)) eye (ex_diag2 (1/2) 4) eye eye /\
    blanchard_kahn 1 1 eye (ex_diag2 (1/2) 4) /\ ~ singular 1 eye.
Proof.
  destruct (approximate_ok 1 1 ex_saddle eye (ex_diag2 (1/2) 4) eye eye) as (C & ev & E & _).
  - apply pairs_ok_ones. intros i _. unfold eye. rewrite Nat.eqb_refl. reflexivity.
  - unfold bk_check. cbn [Nat.eqb seq].
    rewrite (proj2 (existsb_exists _ _ : some_above _ _ = true <-> _)).
    + f_equal. apply existsb_exists. exists 1%nat. split; [cbn; auto|].
      rewrite (eigval_fin _ _ _ (1/4)); [| |].
      * unfold ext_ltb. cbn. destruct (Rle_dec 1 (1 / 4)); [lra|reflexivity].
      * cbn. lra.
      * cbn. unfold eye. cbn. rewrite Rabs_pos_eq; lra.
    + exists 0%nat. split; [cbn; auto|]. rewrite (eigval_fin _ _ _ 2).
      * cbn. destruct (Rle_dec 1 2); [reflexivity|lra].
      * cbn. lra.
      * cbn. unfold eye. cbn. rewrite Rabs_pos_eq; lra.
  - apply eye_nonsingular.
  - exists C, ev. split; [exact E|]. split; [|split].
    + split.
      * split; [| |apply eye_orthogonal|apply eye_orthogonal]; intros i j Hi Hj; repeat small;
          cbv -[Rplus Rmult Ropp Rinv IZR Rminus Rdiv]; lra.
      * intros i j Hij Hi. unfold eye. destruct (Nat.eqb_spec i j); [lia|reflexivity].
      * intros i j Hij Hi. destruct i as [|[|i]]; try lia; destruct j as [|[|j]]; try lia; reflexivity.
      * intros i j Hij Hj. unfold selected, eye. rewrite !Nat.eqb_refl. intros H.
        assert (Ei : i = 0%nat /\ j = 1%nat) by lia.
        destruct Ei as (-> & ->); cbn in *; lra.
    + split; intros i; intros; unfold stable_root, unstable_root.
      * small. cbn. unfold eye. cbn. rewrite !Rabs_pos_eq; lra.
      * assert (i = 1%nat) by lia. subst i. cbn. unfold eye. cbn. rewrite !Rabs_pos_eq; lra.
    + apply (eye_nonsingular' 1).
Qed.

(** ** perturb *)

Lemma perturb_iid : forall qz solve g_m raw m s x order p,
    perturb qz solve ShockIID g_m raw m s x order = Ok p ->
    (order <= 1)%nat /\ pe_m p = m /\ pe_s p = s /\ pe_x p = x /\ pe_Cm p = None /\ pe_flags p = (true, true, true) /\
    exists C, approximate_1st_order qz solve (length s) (length x)
                (let '(gs, gx, fs, fx, fS, fX) := raw in Deriv gs gx g_m fs fx fS fX) = Ok (C, pe_eigvals p) /\
              pe_Cs p = C.
Proof.
  intros qz solve g_m raw m s x order p H. unfold perturb in H.
  destruct (Nat.ltb_spec 1 order); [discriminate|].
  destruct raw as [[[[[gs gx] fs] fx] fS] fX]. cbn [get_derivatives bind] in H.
  destruct (approximate_1st_order qz solve (length s) (length x) _) as [[C ev]|e]; [|discriminate].
  cbn [bind] in H. injection H as <-. repeat split; auto. exists C. auto.
Qed.

Lemma perturb_other : forall qz solve k g_m raw m s x order, k <> ShockIID ->
    exists e, perturb qz solve k g_m raw m s x order = Err e.
Proof.
  intros qz solve k g_m raw m s x order H. unfold perturb. destruct (Nat.ltb 1 order); [eexists; reflexivity|].
  destruct raw as [[[[[gs gx] fs] fx] fS] fX]. destruct k; [|contradiction|]; eexists; reflexivity.
Qed.

(** ** BivariateTaylor *)

Lemma bt_row_value : forall t Cm m s k, bt_Cm t = Some Cm -> (k < length (bt_x t))%nat ->
    nth k (bt_row t m s) 0 = expansion Cm (bt_Cs t) (bt_m t) (bt_s t) (bt_x t) m s k.
Proof.
  intros t Cm m s k E Hk. unfold bt_row.
  rewrite (nth_indep _ 0 ((fun k0 => nth k0 (bt_x t) 0 + match bt_Cm t with Some Cm0 => bt_dev m (bt_m t) Cm0 k0 | None => 0 end
      + bt_dev s (bt_s t) (bt_Cs t) k0) 0%nat)) by (rewrite map_length, seq_length; exact Hk).
  rewrite (map_nth (fun k0 => _)), seq_nth by exact Hk. rewrite E. cbn [plus]. unfold expansion, bt_dev.
  f_equal; [f_equal|]; apply rsum_ext; intros j _; ring.
Qed.
Lemma bt_row_value_none : forall t m s k, bt_Cm t = None -> (k < length (bt_x t))%nat ->
    nth k (bt_row t m s) 0 = expansion (fun _ _ => 0) (bt_Cs t) (bt_m t) (bt_s t) (bt_x t) m s k.
Proof.
  intros t m s k E Hk. unfold bt_row.
  rewrite (nth_indep _ 0 ((fun k0 => nth k0 (bt_x t) 0 + match bt_Cm t with Some Cm0 => bt_dev m (bt_m t) Cm0 k0 | None => 0 end
      + bt_dev s (bt_s t) (bt_Cs t) k0) 0%nat)) by (rewrite map_length, seq_length; exact Hk).
  rewrite (map_nth (fun k0 => _)), seq_nth by exact Hk. rewrite E. cbn [plus]. unfold expansion, bt_dev.
  rewrite (rsum_0 (length (bt_m t))) by (intros; ring).
  f_equal. apply rsum_ext; intros j _; ring.
Qed.
Lemma bt_row_length : forall t m s, length (bt_row t m s) = length (bt_x t).
Proof. intros. unfold bt_row. rewrite map_length, seq_length. reflexivity. Qed.

Lemma bt_rows_value : forall t Cm m s, bt_Cm t = Some Cm -> length m = length s ->
    exists out, bt_eval_ms t (Some (P2 m)) (P2 s) = Ok (P2 out) /\ length out = length s /\
      forall r k, (r < length s)%nat -> (k < length (bt_x t))%nat ->
        nth k (nth r out []) 0 = expansion Cm (bt_Cs t) (bt_m t) (bt_s t) (bt_x t) (nth r m []) (nth r s []) k.
Proof.
  intros t Cm m s E Hl. unfold bt_eval_ms, bt_rows. rewrite E. unfold broadcast. rewrite Hl, Nat.eqb_refl. cbn [bind].
  eexists. split; [reflexivity|]. split.
  - rewrite map_length, combine_length. lia.
  - intros r k Hr Hk.
    rewrite (nth_indep _ [] ((fun ms => bt_row t (fst ms) (snd ms)) ([], []))) by (rewrite map_length, combine_length; lia).
    rewrite (map_nth (fun ms => bt_row t (fst ms) (snd ms))). rewrite combine_nth by exact Hl. cbn [fst snd].
    apply bt_row_value; assumption.
Qed.

Lemma bt_vectors_value : forall t Cm m s, bt_Cm t = Some Cm ->
    exists out, bt_eval_ms t (Some (P1 m)) (P1 s) = Ok (P1 out) /\ length out = length (bt_x t) /\
      forall k, (k < length (bt_x t))%nat ->
        nth k out 0 = expansion Cm (bt_Cs t) (bt_m t) (bt_s t) (bt_x t) m s k.
Proof.
  intros t Cm m s E. unfold bt_eval_ms, bt_rows. rewrite E. cbn [broadcast length Nat.eqb bind combine map fst snd].
  eexists. split; [reflexivity|]. split; [apply bt_row_length|]. intros k Hk. apply bt_row_value; assumption.
Qed.

Lemma bt_one_m_value : forall t Cm m s, bt_Cm t = Some Cm ->
    exists out, bt_eval_ms t (Some (P1 m)) (P2 s) = Ok (P2 out) /\ length out = length s /\
      forall r k, (r < length s)%nat -> (k < length (bt_x t))%nat ->
        nth k (nth r out []) 0 = expansion Cm (bt_Cs t) (bt_m t) (bt_s t) (bt_x t) m (nth r s []) k.
Proof.
  intros t Cm m s E. unfold bt_eval_ms, bt_rows. rewrite E.
  assert (Hb : broadcast [m] s = Ok (map (fun si => (m, si)) s)).
  { unfold broadcast. destruct (Nat.eqb (length [m]) (length s)) eqn:El; [|reflexivity].
    apply Nat.eqb_eq in El. destruct s as [|s0 [|s1 s]]; try discriminate. reflexivity. }
  rewrite Hb. cbn [bind]. rewrite map_map. cbn [fst snd]. eexists. split; [reflexivity|]. split.
  - rewrite map_length. reflexivity.
  - intros r k Hr Hk. rewrite (nth_indep _ [] (bt_row t m [])) by (rewrite map_length; exact Hr).
    rewrite (map_nth (fun si => bt_row t m si)). apply bt_row_value; assumption.
Qed.

(** Without C_m, [m] does not matter. *)
Lemma bt_iid_value : forall t m s, bt_Cm t = None ->
    bt_eval_ms t (Some (P2 m)) (P2 s) = bt_eval_s t (P2 s) /\
    exists out, bt_eval_s t (P2 s) = Ok (P2 out) /\ length out = length s /\
      forall r k, (r < length s)%nat -> (k < length (bt_x t))%nat ->
        nth k (nth r out []) 0 = nth k (bt_x t) 0 + rsum (length (bt_s t)) (fun j => bt_Cs t k j * (nth j (nth r s []) 0 - nth j (bt_s t) 0)).
Proof.
  intros t m s E. unfold bt_eval_s, bt_eval_ms, bt_rows. rewrite E. cbn [bind]. split; [reflexivity|].
  eexists. split; [reflexivity|]. split; [apply map_length|].
  intros r k Hr Hk. rewrite (nth_indep _ [] (bt_row t [] [])) by (rewrite map_length; exact Hr).
  rewrite (map_nth (bt_row t [])). rewrite bt_row_value_none by assumption. unfold expansion.
  rewrite (rsum_0 (length (bt_m t))) by (intros; ring). lra.
Qed.

Lemma bt_needs_m : forall t Cm s, bt_Cm t = Some Cm -> exists e, bt_eval_s t s = Err e.
Proof. intros t Cm s E. unfold bt_eval_s, bt_eval_ms, bt_rows. rewrite E. destruct s; eexists; reflexivity. Qed.

Lemma expansion_point : forall Cm Cs m0 s0 x0 k, expansion Cm Cs m0 s0 x0 m0 s0 k = nth k x0 0.
Proof. intros. unfold expansion. rewrite !rsum_0; [ring| |]; intros; ring. Qed.
