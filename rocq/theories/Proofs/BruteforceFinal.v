(** The linear operator of improved time iteration; names missing from the brute-force library. *)
From Coq Require Import String Reals List Arith Bool Lia Lra.
From Verif.Base Require Import Prelude Arrays Sums.
From Verif.Spec Require Import LinearAlgebra NewtonStep.
From Verif.Model Require Import DecisionRule TimeIteration LinearSolve ImprovedTimeIteration.
From Verif.Base Require Import Nda.
From Verif.Model Require Import Bruteforce.
From Verif.Spec Require Import Bruteforce.
From Verif.Proofs Require Import GaussFinal PerturbationFinal TimeIterationProofs ImprovedTimeIterationProofs BruteforceProofs.
Import ListNotations.
Open Scope R_scope.
Open Scope list_scope.

Section Op.
  Variable ev : tensor -> nat -> nat -> list R -> nat -> R.
  Variables n_m n_im N n_x : nat.
  Variable M : nat -> nat -> nat -> nat -> nat -> R.
  Variable fut : nat -> nat -> nat -> list R.
  Hypothesis Hev : linear_rule n_m n_im N n_x ev.
  Notation d := (n_m * N * n_x)%nat.
  Notation L := (op_apply ev n_m n_im n_x M fut).
  Notation lmat := (op_as_matrix ev n_m n_im N n_x M fut).

  Lemma apply_linear : forall a b p q r,
      (forall i n k, (i < n_m)%nat -> (n < N)%nat -> (k < n_x)%nat -> r i n k = a * p i n k + b * q i n k) ->
      forall i n k, (i < n_m)%nat -> L r i n k = a * L p i n k + b * L q i n k.
  Proof. exact (L_linear ev n_m n_im N n_x M fut Hev). Qed.

  (** The operator on vectors. *)
  Definition vapply (x : nat -> R) : nat -> R := flatten N n_x (L (unflatten N n_x x)).

  Lemma vapply_linear : forall a b x y z, (forall q, (q < d)%nat -> z q = a * x q + b * y q) ->
      forall q, (q < d)%nat -> vapply z q = a * vapply x q + b * vapply y q.
  Proof.
    intros a b x y z H q Hq. unfold vapply, flatten. destruct (flat_split N n_x n_m q Hq) as (H1 & H2 & H3).
    apply apply_linear; [|exact H1]. intros i n k Hi Hn Hk. unfold unflatten. apply H. apply flat_bound; assumption.
  Qed.

  Lemma vapply_sum : forall c (x : nat -> nat -> R) z, (forall q, (q < d)%nat -> z q = rsum c (fun e => x e q)) ->
      forall q, (q < d)%nat -> vapply z q = rsum c (fun e => vapply (x e) q).
  Proof.
    induction c as [|c IH]; intros x z H q Hq; cbn [rsum] in *.
    - rewrite (vapply_linear 0 0 z z z) by (try assumption; intros; rewrite H by assumption; lra). lra.
    - rewrite (vapply_linear 1 1 (fun q => rsum c (fun e => x e q)) (x c) z) by (try assumption; intros; rewrite H by assumption; lra).
      rewrite (IH x (fun q => rsum c (fun e => x e q))) by (try assumption; reflexivity). lra.
  Qed.

  Definition unit (c q : nat) : R := if Nat.eqb q c then 1 else 0.

  Lemma lmat_columns : forall r c, (r < d)%nat -> (c < d)%nat -> mget lmat r c = vapply (unit c) r.
  Proof.
    intros r c Hr Hc. unfold op_as_matrix. cbv zeta. cbn [mget].
    match goal with |- snd (for_range _ ?B ?z) _ _ = _ =>
      pose proof (for_range_inv (fun e (st : (nat -> R) * (nat -> nat -> R)) =>
        (forall q, fst st q = if Nat.ltb 0 e then unit (e - 1) q else 0) /\
        (forall c, (c < e)%nat -> forall r, snd st r c = vapply (unit c) r)) d B z) as G end.
    cbv beta in G. apply G; [| |exact Hc]; clear G.
    - split; [intros; reflexivity|intros; lia].
    - clear r c Hr Hc. intros e (larg & J) He (H1 & H2). cbn [fst snd] in *.
      assert (Hl : forall q, upd (if Nat.ltb 0 e then upd larg (e - 1) 0 else larg) e 1 q = unit e q).
      { intros q. unfold upd, unit. destruct (Nat.eqb_spec q e) as [|Hne]; [reflexivity|].
        destruct (Nat.ltb_spec 0 e).
        - destruct (Nat.eqb_spec q (e - 1)) as [|Hne']; [reflexivity|]. rewrite H1. destruct (Nat.ltb_spec 0 e); [|lia].
          unfold unit. apply Nat.eqb_neq in Hne'. rewrite Hne'. reflexivity.
        - rewrite H1. destruct (Nat.ltb_spec 0 e); [lia|]. reflexivity. }
      split.
      + intros q. rewrite Hl. cbn [Nat.ltb Nat.leb]. replace (S e - 1)%nat with e by lia. reflexivity.
      + intros c Hc r. destruct (Nat.eqb_spec c e) as [->|Hne].
        * assert (E : upd (if Nat.ltb 0 e then upd larg (e - 1) 0 else larg) e 1 = unit e)
            by (apply FunctionalExtensionality.functional_extensionality; exact Hl).
          rewrite E. reflexivity.
        * apply H2. lia.
  Qed.

  Lemma lmat_product : forall x r, (r < d)%nat -> mat_vec d (mget lmat) x r = vapply x r.
  Proof.
    intros x r Hr. rewrite (vapply_sum d (fun c q => x c * unit c q) x).
    - unfold mat_vec. apply rsum_ext. intros c Hc. rewrite lmat_columns by assumption.
      rewrite (vapply_linear (x c) 0 (unit c) (unit c) (fun q => x c * unit c q)) by (try assumption; intros; ring). ring.
    - intros q Hq. rewrite (rsum_single d q _ Hq); unfold unit; [rewrite Nat.eqb_refl; ring|].
      intros i _ Hne. destruct (Nat.eqb_spec q i); [lia|]. ring.
    - exact Hr.
  Qed.

  Lemma op_shape : nrow lmat = d /\ ncol lmat = d.
  Proof. split; reflexivity. Qed.

  Lemma matvec_matrix : forall x r, (r < d)%nat ->
      op_matvec ev n_m n_im N n_x M fut false x r = mat_vec d (mget lmat) x r /\
      op_matvec ev n_m n_im N n_x M fut true x r = x r - mat_vec d (mget lmat) x r.
  Proof.
    intros x r Hr. rewrite lmat_product by exact Hr. unfold op_matvec. cbv zeta. split; [reflexivity|].
    assert (0 < N /\ 0 < n_x)%nat as (HN & Hx) by (split; destruct N, n_x; lia).
    unfold flatten at 1. fold (flatten N n_x (unflatten N n_x x) r). rewrite flatten_unflatten by assumption. reflexivity.
  Qed.

  (** The Newton step through gmres. *)
  Lemma gmres_newton_at : forall (gmres : ((nat -> R) -> nat -> R) -> (nat -> R) -> (nat -> R) * nat) r D J ddx, premultiply n_m n_im N n_x D J = Ok M ->
      solve_pages n_m N n_x D r = Ok ddx ->
      let y := fst (gmres (op_matvec ev n_m n_im N n_x M fut true) (flatten N n_x ddx)) : nat -> R in
      newton_system n_m n_im N n_x ev D J fut r (unflatten N n_x y)
        (present_effect n_x D (unflatten N n_x (fun q => flatten N n_x ddx q - op_matvec ev n_m n_im N n_x M fut true y q))).
  Proof.
    intros gmres r D J ddx HP Ed.
    pose proof (solve_pages_ok _ _ _ _ _ _ Ed) as Hd.
    intros y. clearbody y. intros i n k Hi Hn Hk.
    assert (E : present_effect n_x D (unflatten N n_x (fun q => flatten N n_x ddx q - op_matvec ev n_m n_im N n_x M fut true y q)) i n k
                = present_effect n_x D ddx i n k - present_effect n_x D (unflatten N n_x y) i n k
                  + present_effect n_x D (future_effect n_im n_x ev M fut (unflatten N n_x y)) i n k).
    { unfold present_effect. rewrite <- rsum_minus, <- rsum_plus. apply rsum_ext. intros l Hl.
      assert (E1 : unflatten N n_x (fun q => flatten N n_x ddx q - op_matvec ev n_m n_im N n_x M fut true y q) i n l
               = ddx i n l - (unflatten N n_x y i n l - future_effect n_im n_x ev M fut (unflatten N n_x y) i n l)).
      { unfold unflatten at 1. rewrite flatten_at by assumption. f_equal. unfold op_matvec. cbv zeta. rewrite flatten_at by assumption.
        f_equal. unfold op_apply. apply d_filt_value. exact Hi. }
      rewrite E1. ring. }
    rewrite E. rewrite (Hd i n k Hi Hn Hk).
    rewrite (present_future ev n_m n_im N n_x D J M fut (unflatten N n_x y) HP i n k Hi Hn Hk). ring.
  Qed.

  Lemma gmres_newton : forall gmres r D J tot, premultiply n_m n_im N n_x D J = Ok M ->
      gmres_step ev n_m n_im N n_x M fut gmres r D = Ok tot ->
      exists b y, y = fst (gmres (op_matvec ev n_m n_im N n_x M fut true) b) /\
        newton_system n_m n_im N n_x ev D J fut r tot
          (present_effect n_x D (unflatten N n_x (fun q => b q - op_matvec ev n_m n_im N n_x M fut true y q))).
  Proof.
    intros gmres r D J tot HP H. unfold gmres_step in H.
    destruct (solve_pages n_m N n_x D r) as [ddx|e] eqn:Ed; [|discriminate]. cbn [bind] in H. injection H as <-.
    exists (flatten N n_x ddx). eexists. split; [reflexivity|]. exact (gmres_newton_at gmres r D J ddx HP Ed).
  Qed.

  (** ** radius_jac *)
  Notation nrm := (norm2 n_m N n_x).

  Lemma norm2_nonneg : forall p, 0 <= nrm p.
  Proof. intros. apply sqrt_pos. Qed.

  Lemma norm2_scal : forall a p q, (forall i n k, (i < n_m)%nat -> (n < N)%nat -> (k < n_x)%nat -> q i n k = a * p i n k) ->
      nrm q = Rabs a * nrm p.
  Proof.
    intros a p q H. unfold norm2. rewrite <- (sqrt_Rsqr_abs a), <- sqrt_mult.
    - f_equal. rewrite <- rsum_scal. apply rsum_ext. intros c Hc. unfold flatten.
      destruct (flat_split N n_x n_m c Hc) as (H1 & H2 & H3). rewrite H by assumption. unfold Rsqr. ring.
    - apply Rle_0_sqr.
    - apply rsum_nonneg. intros. apply pow2_ge_0.
  Qed.

  Notation iterate := (images L).

  Lemma iterate_shift : forall c p, iterate (S c) p = iterate c (L p).
  Proof. induction c as [|c IH]; intros p; [reflexivity|]. cbn [images] in *. rewrite IH. reflexivity. Qed.

  Lemma apply_scal : forall a p q, (forall i n k, (i < n_m)%nat -> (n < N)%nat -> (k < n_x)%nat -> q i n k = a * p i n k) ->
      forall i n k, (i < n_m)%nat -> L q i n k = a * L p i n k.
  Proof. intros a p q H i n k Hi. rewrite (apply_linear a 0 p p q) by (try assumption; intros; rewrite H by assumption; ring). ring. Qed.

  Lemma last_default : forall (v : R) l a b, last (v :: l) a = last (v :: l) b.
  Proof. intros v l. revert v. induction l as [|w l IH]; intros v a b; [reflexivity|]. change (last (w :: l) a = last (w :: l) b). apply IH. Qed.

  (** What the loop returns, [p0] being a direction proportional to the current one. *)
  Lemma radius_loop_spec : forall maxit p lam lm l lmax ls p0 a,
      radius_loop ev n_m n_im N n_x M fut maxit p lam lm = Some (l, lmax, ls) ->
      (forall i n k, (i < n_m)%nat -> (n < N)%nat -> (k < n_x)%nat -> p i n k / lam = a * p0 i n k) -> lam <> 0 -> 0 < a ->
      a * nrm p0 = 1 ->
      length ls = maxit /\
      (forall c, (c < maxit)%nat -> 0 < nrm (iterate c p0) /\ nth c ls 0 = nrm (iterate (S c) p0) / nrm (iterate c p0)) /\
      l = last ls lam /\ lmax = fold_left Rmax ls lm.
  Proof.
    induction maxit as [|m IH]; intros p lam lm l lmax ls p0 a H Hp Hlam Ha Hn; cbn [radius_loop] in H.
    - injection H as <- <- <-. repeat split; try reflexivity; intros; lia.
    - destruct (Req_EM_T lam 0) as [E|_]; [contradiction|].
      set (p' := L (fun i n k => p i n k / lam)) in *. set (lam' := nrm p') in *.
      destruct (radius_loop ev n_m n_im N n_x M fut m p' lam' (Rmax lm lam')) as [[[l1 lm1] ls1]|] eqn:E; [|discriminate].
      injection H as <- <- <-.
      assert (Hp' : forall i n k, (i < n_m)%nat -> (n < N)%nat -> (k < n_x)%nat -> p' i n k = a * L p0 i n k).
      { intros i n k Hi _ _. unfold p'. apply apply_scal; [exact Hp|exact Hi]. }
      assert (Hl' : lam' = a * nrm (L p0)).
      { unfold lam'. rewrite (norm2_scal a (L p0) p' Hp'), Rabs_pos_eq by lra. reflexivity. }
      assert (Hn0 : 0 < nrm p0) by (pose proof (norm2_nonneg p0) as [?|E0]; [assumption|rewrite <- E0 in Hn; lra]).
      assert (Hq : lam' = nrm (L p0) / nrm p0).
      { rewrite Hl'. replace a with (/ nrm p0) by (apply (Rmult_eq_reg_r (nrm p0)); [rewrite Hn, Rinv_l; lra|lra]). field. lra. }
      destruct m as [|m].
      + cbn [radius_loop] in E. injection E as <- <- <-. split; [reflexivity|]. split; [|split; reflexivity].
        intros c Hc. replace c with 0%nat by lia. cbn [nth images]. split; [exact Hn0|exact Hq].
      + assert (Hl0 : lam' <> 0).
        { intros E0. cbn [radius_loop] in E. destruct (Req_EM_T lam' 0); [discriminate|contradiction]. }
        assert (Hlp : 0 < lam') by (pose proof (norm2_nonneg p') as [?|E0]; [assumption|elim Hl0; unfold lam'; lra]).
        destruct (IH p' lam' (Rmax lm lam') l1 lm1 ls1 (L p0) (a / lam') E) as (H1 & H2 & H3 & H4).
        * intros i n k Hi Hn' Hk. rewrite Hp' by assumption. field. exact Hl0.
        * exact Hl0.
        * apply Rdiv_lt_0_compat; lra.
        * rewrite Hl'. assert (nrm (L p0) <> 0) by (intros E0; rewrite E0 in Hl'; lra). field. lra.
        * split; [cbn; lia|]. split; [|split].
          -- intros [|c] Hc; [split; [exact Hn0|exact Hq]|]. cbn [nth]. rewrite (iterate_shift (S c)), (iterate_shift c). apply H2. lia.
          -- rewrite H3. destruct ls1 as [|v ls1]; [cbn in H1; lia|]. rewrite (last_default v ls1 lam' lam). reflexivity.
          -- exact H4.
  Qed.

  Lemma radius_jac_spec : forall maxit draw l lmax ls,
      radius_jac ev n_m n_im N n_x M fut maxit draw = Some (l, lmax, ls) ->
      length ls = maxit /\
      (forall c, (c < maxit)%nat -> 0 < nrm (iterate c draw) /\ nth c ls 0 = nrm (iterate (S c) draw) / nrm (iterate c draw)) /\
      l = last ls 1 /\ lmax = fold_left Rmax ls 0.
  Proof.
    intros maxit draw l lmax ls H. unfold radius_jac in H. destruct (Req_EM_T (nrm draw) 0) as [E|Hne]; [discriminate|].
    assert (Hp : 0 < nrm draw) by (pose proof (norm2_nonneg draw) as [?|E]; [assumption|elim Hne; lra]).
    apply (radius_loop_spec maxit _ _ _ l lmax ls draw (/ nrm draw) H).
    - intros i n k _ _ _. field. lra.
    - lra.
    - apply Rinv_0_lt_compat. exact Hp.
    - field. lra.
  Qed.

  Lemma fold_max_bound : forall ls a b, a <= b -> (forall v, In v ls -> v <= b) -> fold_left Rmax ls a <= b.
  Proof.
    induction ls as [|v ls IH]; intros a b Ha H; cbn; [exact Ha|]. apply IH; [|intros; apply H; right; assumption].
    apply Rmax_lub; [exact Ha|]. apply H. left. reflexivity.
  Qed.
  Lemma fold_max_ge : forall ls a, a <= fold_left Rmax ls a /\ forall v, In v ls -> v <= fold_left Rmax ls a.
  Proof.
    induction ls as [|v ls IH]; intros a; cbn; [split; [lra|contradiction]|]. destruct (IH (Rmax a v)) as (H1 & H2). split.
    - pose proof (Rmax_l a v). lra.
    - intros w [<-|Hw]; [pose proof (Rmax_r a v); lra|]. apply H2. exact Hw.
  Qed.

  (** No estimate exceeds a bound of the operator. *)
  Lemma radius_bound : forall maxit draw l lmax ls C, 0 <= C ->
      (forall p, nrm (L p) <= C * nrm p) ->
      radius_jac ev n_m n_im N n_x M fut maxit draw = Some (l, lmax, ls) -> lmax <= C /\ forall v, In v ls -> 0 <= v <= lmax.
  Proof.
    intros maxit draw l lmax ls C HC Hb H. destruct (radius_jac_spec _ _ _ _ _ H) as (H1 & H2 & _ & H4).
    assert (Hv : forall v, In v ls -> 0 <= v <= C).
    { intros v Hv. destruct (In_nth ls v 0 Hv) as (c & Hc & <-). rewrite H1 in Hc. destruct (H2 c Hc) as (Hp & ->). split.
      - apply Rmult_le_pos; [apply norm2_nonneg|]. left. apply Rinv_0_lt_compat. exact Hp.
      - apply (Rmult_le_reg_r (nrm (iterate c draw))); [exact Hp|]. unfold Rdiv. rewrite Rmult_assoc, Rinv_l, Rmult_1_r by lra.
        apply (Hb (iterate c draw)). }
    split.
    - rewrite H4. apply fold_max_bound; [exact HC|]. intros v Hi. apply Hv. exact Hi.
    - intros v Hi. split; [apply Hv; exact Hi|]. rewrite H4. apply fold_max_ge. exact Hi.
  Qed.
End Op.

Lemma sp_reshape_values : forall t sh, well_formed t -> sh <> [] -> st_shape t <> [] -> size sh = size (st_shape t) ->
    exists t', sp_reshape t sh = Ok t' /\ st_shape t' = sh /\ well_formed t' /\
      forall idx idx', valid idx (st_shape t) -> valid idx' sh -> ravel (st_shape t) idx = ravel sh idx' ->
        stored t' idx' = stored t idx.
Proof.
  intros t sh H1 H2 H3 H4. destruct (sp_reshape_ok t sh H1 H2 H3 H4) as (t' & A & B & C & _ & _ & D). exists t'. auto.
Qed.
Lemma sp_reshape_refused : forall t sh, sh <> [] -> st_shape t <> [] ->
    (size sh <> size (st_shape t) -> sp_reshape t sh = Err ExcAssert) /\
    (forall idx, size sh = size (st_shape t) -> In idx (st_inds t) -> ~ valid idx (st_shape t) -> sp_reshape t sh = Err ExcValue).
Proof.
  intros t sh H1 H2. split; [apply sp_reshape_size; assumption|]. intros idx H3 H4 H5. apply (sp_reshape_outside t sh idx); assumption.
Qed.
Lemma as_array_shrinks : exists M,
    as_array (Sparse [[0; 0]%nat] [5] [2; 2]%nat) (Some [2; 2]%nat) = Ok M /\ nrow M = 1%nat /\ ncol M = 1%nat.
Proof. eexists. split; [reflexivity|]. split; reflexivity. Qed.
Lemma as_array_empty : as_array (Sparse [] [] [2; 2]%nat) (Some [2; 2]%nat) = Err ExcValue.
Proof. reflexivity. Qed.
Lemma as_array_default : forall t, st_shape t <> [] ->
    (forall P, size (st_shape t) = (P * P)%nat -> as_array t None = as_array t (Some [P; P])) /\
    ((forall P, size (st_shape t) <> P * P)%nat -> as_array t None = Err ExcAssert).
Proof. intros t H. split; [intros P; apply as_array_square; exact H|]. apply as_array_not_square. exact H. Qed.

Lemma place_split : forall n_m N n_x q, (q < n_m * N * n_x)%nat ->
    exists i n k, q = place N n_x i n k /\ (i < n_m)%nat /\ (n < N)%nat /\ (k < n_x)%nat.
Proof.
  intros n_m N n_x q Hq. destruct (flat_split N n_x n_m q Hq) as (H1 & H2 & H3).
  exists (q / n_x / N)%nat, ((q / n_x) mod N)%nat, (q mod n_x)%nat. split; [|auto]. unfold place.
  assert (n_x <> 0)%nat by (intros ->; lia). assert (N <> 0)%nat by (intros ->; lia).
  rewrite (Nat.mul_comm _ N), <- (Nat.div_mod (q / n_x) N) by assumption.
  rewrite (Nat.mul_comm _ n_x), <- (Nat.div_mod q n_x) by assumption. reflexivity.
Qed.

Lemma present_jacobian : forall n_m N n_x dres, (1 <= n_m)%nat -> (1 <= N)%nat -> (1 <= n_x)%nat ->
    exists t M, dres_to_sparse n_m N n_x n_x dres = Ok t /\ as_array t None = Ok M /\
      nrow M = (n_m * N * n_x)%nat /\ ncol M = (n_m * N * n_x)%nat /\
      (forall r c, (r < n_m * N * n_x)%nat -> (c < n_m * N * n_x)%nat -> mget M r c = mget (jac_1 n_m N n_x dres) r c) /\
      (forall x i n k, (i < n_m)%nat -> (n < N)%nat -> (k < n_x)%nat ->
         mat_vec (n_m * N * n_x) (mget M) x (place N n_x i n k)
         = rsum n_x (fun l => dres i n k l * x (place N n_x i n l))).
Proof.
  intros n_m N n_x dres H1 H2 H3. destruct (dres_array n_m N n_x dres H1 H2 H3) as (t & M & Ht & HM & Hr & Hc & He).
  exists t, M. repeat (split; [assumption|]). split.
  - intros r c Hr' Hc'. destruct (place_split n_m N n_x r Hr') as (i & n & k & -> & Hi & Hn & Hk).
    destruct (place_split n_m N n_x c Hc') as (i' & n' & l & -> & Hi' & Hn' & Hl).
    rewrite He, jac_1_entry by assumption. reflexivity.
  - intros x i n k Hi Hn Hk. apply (block_product_1 n_m N n_x dres (mget M) x i n k); [|exact Hi|exact Hn].
    intros. apply He; assumption.
Qed.
Lemma future_jacobian : forall n_m N n_x jres, (1 <= n_m)%nat -> (1 <= N)%nat -> (1 <= n_x)%nat ->
    exists t M, jres_to_sparse n_m N n_x n_m n_x jres = Ok t /\ as_array t None = Ok M /\
      nrow M = (n_m * N * n_x)%nat /\ ncol M = (n_m * N * n_x)%nat /\
      (forall r c, (r < n_m * N * n_x)%nat -> (c < n_m * N * n_x)%nat -> mget M r c = mget (j2_A n_m N n_x jres) r c) /\
      (forall x i n k, (i < n_m)%nat -> (n < N)%nat -> (k < n_x)%nat ->
         mat_vec (n_m * N * n_x) (mget M) x (place N n_x i n k)
         = rsum n_m (fun j => rsum n_x (fun l => jres i n k j l * x (place N n_x j n l)))).
Proof.
  intros n_m N n_x jres H1 H2 H3. destruct (jres_array n_m N n_x jres H1 H2 H3) as (t & M & Ht & HM & Hr & Hc & He).
  exists t, M. repeat (split; [assumption|]). split.
  - intros r c Hr' Hc'. destruct (place_split n_m N n_x r Hr') as (i & n & k & -> & Hi & Hn & Hk).
    destruct (place_split n_m N n_x c Hc') as (i' & n' & l & -> & Hi' & Hn' & Hl).
    rewrite He, j2_A_entry by assumption. reflexivity.
  - intros x i n k Hi Hn Hk. apply (block_product_2 n_m N n_x jres (mget M) x i n k); [|exact Hn].
    intros. apply He; assumption.
Qed.
Lemma jacobian_refused : forall n_m N n_x a b dres jres,
    (a <> n_x -> dres_to_sparse n_m N n_x a dres = Err ExcAssert) /\
    (a <> n_m \/ b <> n_x -> jres_to_sparse n_m N n_x a b jres = Err ExcAssert).
Proof.
  intros n_m N n_x a b dres jres. split.
  - intros H. unfold dres_to_sparse. destruct (Nat.eqb_spec n_x a); [lia|reflexivity].
  - intros H. unfold jres_to_sparse. destruct (Nat.eqb_spec a n_m), (Nat.eqb_spec b n_x); try reflexivity. lia.
Qed.

Lemma mult_AB_example : exact_solver LinearSolve.gauss_solve /\ exists out,
  mult_AB LinearSolve.gauss_solve 1 1 1 (fun _ _ _ _ => 2) (fun _ _ _ _ _ => 6) = Ok out /\ out 0%nat 0%nat 0%nat 0%nat 0%nat = 3.
Proof.
  split; [exact gauss_exact|].
  pose proof (gauss_solve_correct 1 (fun _ _ => 2) (fun _ => 6)) as G.
  unfold mult_AB. cbn [for_range_res bind]. destruct (LinearSolve.gauss_solve 1 (fun _ _ => 2) (fun _ => 6)) as [x|e].
  - cbn [bind]. eexists. split; [reflexivity|]. cbn. destruct G as (G & _). specialize (G 0%nat ltac:(lia)). unfold mat_vec in G. cbn in G. unfold upd. cbn. lra.
  - exfalso. destruct G as (z & (i & Hi & Hz) & Hs). specialize (Hs 0%nat ltac:(lia)). unfold mat_vec in Hs. cbn in Hs.
    apply Hz. replace i with 0%nat by lia. lra.
Qed.

Lemma names_missing :
  (forall f, In f ["SmartJacobian.get_filter"; "SmartJacobian.B"; "SmartJacobian.j2_B"; "SmartJacobian.jac_2";
                   "SmartJacobian.jac"; "SmartJacobian.solve"; "SmartJacobian.solve_sp"; "SmartJacobian.solve_smart";
                   "SmartJacobian.solve_ind"; "compact_ddx"; "construct_j2"; "classical_perturbation";
                   "newtonator"; "spectral_radius"]%string -> missing_names f <> []) /\
  (forall f, In f ["B_prod"; "mult_AB"; "SparseTensor"; "dres_to_sparse"; "jres_to_sparse";
                   "SmartJacobian.jac_1"; "SmartJacobian.j2_A"]%string -> missing_names f = []).
Proof.
  split; intros f Hf; cbn [In] in Hf.
  - repeat (destruct Hf as [<-|Hf]; [vm_compute; discriminate|]). contradiction.
  - repeat (destruct Hf as [<-|Hf]; [vm_compute; reflexivity|]). contradiction.
Qed.

Lemma matvec_effect : forall ev n_m n_im N n_x M fut x i n k, (i < n_m)%nat -> (n < N)%nat -> (k < n_x)%nat ->
    op_matvec ev n_m n_im N n_x M fut false x (place N n_x i n k)
    = future_effect n_im n_x ev M fut (fun i n k => x (place N n_x i n k)) i n k.
Proof.
  intros ev n_m n_im N n_x M fut x i n k Hi Hn Hk. unfold op_matvec. cbv zeta. unfold place at 1. rewrite flatten_at by assumption.
  unfold op_apply. apply d_filt_value. exact Hi.
Qed.

Lemma radius_example : exists l lmax ls,
  radius_jac (fun p i j S l => p 0%nat 0%nat 0%nat) 1 1 1 1 (fun _ _ _ _ _ => 1 / 2) (fun _ _ _ => []) 2 (fun _ _ _ => 3) = Some (l, lmax, ls) /\
  l = 1 / 2 /\ lmax = 1 / 2.
Proof.
  assert (Hs : forall p : tensor, norm2 1 1 1 p = Rabs (p 0%nat 0%nat 0%nat)).
  { intros p. unfold norm2, flatten. cbn [rsum Nat.mul Nat.add Nat.div Nat.divmod fst Nat.modulo snd Nat.sub].
    change (0 / 1 / 1)%nat with 0%nat. change ((0 / 1) mod 1)%nat with 0%nat. change (0 mod 1)%nat with 0%nat.
    rewrite <- sqrt_Rsqr_abs. f_equal. unfold Rsqr. ring. }
  assert (Ha : forall p : tensor, op_apply (fun p i j S l => p 0%nat 0%nat 0%nat) 1 1 1 (fun _ _ _ _ _ => 1 / 2) (fun _ _ _ => []) p 0%nat 0%nat 0%nat
             = p 0%nat 0%nat 0%nat / 2).
  { intros p. unfold op_apply. rewrite d_filt_value by lia. unfold future_effect. cbn. lra. }
  unfold radius_jac. rewrite Hs. rewrite (Rabs_pos_eq 3) by lra. destruct (Req_EM_T 3 0); [lra|].
  cbn [radius_loop]. destruct (Req_EM_T 1 0); [lra|]. rewrite Hs, Ha.
  replace (3 / 3 / 1 / 2) with (1 / 2) by lra. rewrite (Rabs_pos_eq (1 / 2)) by lra. destruct (Req_EM_T (1 / 2) 0); [lra|].
  rewrite Hs, !Ha. replace (3 / 3 / 1 / 2 / (1 / 2) / 2) with (1 / 2) by lra. rewrite (Rabs_pos_eq (1 / 2)) by lra.
  do 3 eexists. split; [reflexivity|]. split; [reflexivity|]. rewrite (Rmax_right 0) by lra. apply Rmax_left. lra.
Qed.

Lemma operator_example :
  op_matvec (fun p i j S l => p j 0%nat l) 1 1 1 1 (fun _ _ _ _ _ => 3) (fun _ _ _ => []) true (fun _ => 2) 0%nat = -4.
Proof.
  pose proof (matvec_effect (fun p i j S l => p j 0%nat l) 1 1 1 1 (fun _ _ _ _ _ => 3) (fun _ _ _ => []) (fun _ => 2) 0 0 0
    ltac:(lia) ltac:(lia) ltac:(lia)) as E.
  unfold place, future_effect in E. cbn [Nat.mul Nat.add rsum] in E.
  unfold op_matvec in *. cbv zeta in *. change (0 * 1 + 0 * 1 + 0)%nat with 0%nat in E.
  unfold flatten in *. cbv beta in *. unfold unflatten at 1. lra.
Qed.
