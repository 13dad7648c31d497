(** Proofs on improved time iteration. *)
From Coq Require Import String Reals List Arith Lia Lra Bool.
From Verif.Base Require Import Prelude Arrays Sums Norms Ext.
From Verif.Spec Require Import Complementarity Euler LinearAlgebra NewtonStep.
From Verif.Model Require Import Discretization Grids Distributions Processes DecisionRule Complementarity LinearSolve
  NumDiff TimeIteration ImprovedTimeIteration.
From Verif.Spec Require Import ImprovedTimeIteration.
From Verif.Proofs Require Import DivMod GaussFinal FischerBurmeister NewtonProofs TimeIterationProofs.
Import ListNotations.
Open Scope R_scope.

(** ** Same residuals as plain time iteration *)
Lemma euler_residuals_same : forall g f exo s n_x dr x,
    (1 <= ex_n exo)%nat -> (forall i, (i < ex_n exo)%nat -> dp_n (ex_dp exo) i = dp_n (ex_dp exo) 0) ->
    euler_residuals g f exo s n_x dr x = residuals_simple g f exo s n_x dr x.
Proof.
  intros g f exo s n_x dr x Hn Hc. unfold euler_residuals, residuals_simple. rewrite Nat.max_l by lia.
  apply for_range_res_ext. intros i acc Hi. rewrite (proj2 (Nat.ltb_lt _ _) Hi), (Hc i Hi). reflexivity.
Qed.

Lemma same_residuals : forall g f exo s n_x dr x,
    (exists c, exo = mc_exo c /\ (1 <= nrow (fst c))%nat) \/
    (exists p, exo = gdp_exo p /\ (1 <= nrow (gdp_nodes p))%nat) \/
    (exists d dim, exo = iid_exo d dim) ->
    euler_residuals g f exo s n_x dr x = residuals_simple g f exo s n_x dr x.
Proof.
  intros g f exo s n_x dr x H. apply euler_residuals_same.
  - destruct H as [(c & -> & H)|[(p & -> & H)|(d & dim & ->)]]; cbn; lia.
  - destruct H as [(c & -> & H)|[(p & -> & H)|(d & dim & ->)]]; intros; reflexivity.
Qed.

(** ** Complementarity *)
Lemma iti_outer : forall h ub x, ub <> MInf ->
    exists v, iti_smooth (- h) (below ub x) = Some v /\
      (v = 0 <-> ext_le_r x ub /\ (ext_lt_r x ub -> 0 <= h) /\ h <= 0) /\
      (forall e, Rabs v < e -> ext_le_r (x - e) ub /\ h < e /\ (ext_lt_r (x + 2 * e) ub -> - (2 * e) < h)).
Proof.
  intros h ub x Hub. destruct ub as [|b|]; [contradiction| |]; cbn [below]; unfold iti_smooth; cbn [ext_gtb].
  - destruct (Rlt_dec 100000 (b - x)) as [Hbig|Hbig]; eexists; (split; [reflexivity|]); cbn [ext_le_r ext_lt_r].
    + split; [|].
      * split; intros H; [repeat split; lra|]. destruct H as (_ & H1 & H2). specialize (H1 ltac:(lra)). lra.
      * intros e He. apply Rabs_def2 in He. repeat split; intros; lra.
    + change (- h + (b - x) - sqrt ((- h) ^ 2 + (b - x) ^ 2)) with (PhiFB (- h) (b - x)). split.
      * rewrite PhiFB_zero_iff. split.
        { intros (H1 & H2 & H3). repeat split; try lra. intros. nra. }
        { intros (H1 & H2 & H3). repeat split; try lra. destruct (Rle_lt_or_eq_dec _ _ H1) as [Hl|He].
          - specialize (H2 Hl). nra. - subst. lra. }
      * intros e He. apply Rabs_def2 in He. pose proof (PhiFB_le_min (- h) (b - x)) as Hm.
        repeat split; try lra. intros Hx. destruct (Rlt_le_dec (- (2 * e)) h) as [|Hc]; [assumption|exfalso].
        pose proof (PhiFB_ge_min (- h) (b - x) (2 * e)). lra.
  - eexists; (split; [reflexivity|]). cbn [ext_le_r ext_lt_r]. split.
    + split; intros H; [repeat split; lra|]. destruct H as (_ & H1 & H2). specialize (H1 I). lra.
    + intros e He. apply Rabs_def2 in He. repeat split; intros; lra.
Qed.

Lemma iti_inner : forall r lb x, lb <> PInf ->
    exists h, iti_smooth r (above x lb) = Some h /\
      (h <= 0 <-> (ext_lt_l lb x -> r <= 0)) /\
      (0 <= h <-> ext_le_l lb x /\ 0 <= r) /\
      (forall e, 0 < e -> (- e <= h -> ext_le_l lb (x + e) /\ - e <= r) /\
                 (h < e -> ext_lt_l lb (x - 3 * e) -> r <= 3 * e)).
Proof.
  intros r lb x Hlb. destruct lb as [|a|]; [| |contradiction]; cbn [above]; unfold iti_smooth; cbn [ext_gtb].
  - exists r. cbn [ext_le_l ext_lt_l]. repeat split; try tauto; intros; try tauto; try lra.
  - destruct (Rlt_dec 100000 (x - a)) as [Hbig|Hbig]; eexists; (split; [reflexivity|]); cbn [ext_le_l ext_lt_l].
    + repeat split; try tauto; intros; try lra.
    + change (r + (x - a) - sqrt (r ^ 2 + (x - a) ^ 2)) with (PhiFB r (x - a)).
      pose proof (PhiFB_pos_iff r (x - a)) as Hp. pose proof (PhiFB_neg_iff r (x - a)) as Hn.
      pose proof (PhiFB_le_min r (x - a)) as Hm. split; [|split].
      * split; intros H.
        -- intros Hx. destruct (Rle_dec r 0); [assumption|exfalso]. assert (0 < PhiFB r (x - a)); [|lra]. apply Hp. lra.
        -- destruct (Rle_dec (PhiFB r (x - a)) 0); [assumption|exfalso].
           destruct (proj1 Hp) as [H1 H2]; [lra|]. specialize (H ltac:(lra)). lra.
      * split; intros H; [lra|]. destruct (Rle_dec 0 (PhiFB r (x - a))); [assumption|exfalso].
        destruct (proj1 Hn); lra.
      * intros e He. split; [intros; lra|]. intros Hh Hx. destruct (Rle_dec r (3 * e)); [assumption|exfalso].
        pose proof (PhiFB_ge_min r (x - a) (3 * e)). lra.
Qed.

Lemma iti_value_zero : forall lb ub x r,
    lb <> PInf -> ub <> MInf -> ext_le lb ub -> (iti_value lb ub x r = Some 0 <-> mcp lb ub x r).
Proof.
  intros lb ub x r Hl Hu Hle. unfold iti_value.
  destruct (iti_inner r lb x Hl) as (h & -> & H1 & H2 & _).
  destruct (iti_outer h ub x Hu) as (v & -> & H3 & _).
  assert (E : Some v = Some 0 <-> v = 0) by (split; intros; congruence). rewrite E, H3, H1. unfold mcp.
  assert (G : (ext_lt_r x ub -> 0 <= h) <-> (ext_lt_r x ub -> ext_le_l lb x /\ 0 <= r)) by (rewrite H2; tauto).
  rewrite G. split.
  - intros (A & B & C). split; [|tauto].
    destruct ub as [|b|]; [contradiction| |]; destruct lb as [|a|]; try contradiction; cbn in *; try exact I; [|tauto].
    destruct (Rlt_dec x b); [tauto|]. lra.
  - intros (A & B & C & D). tauto.
Qed.

Lemma iti_value_approx : forall lb ub x r v e,
    lb <> PInf -> ub <> MInf -> ext_le lb ub -> iti_value lb ub x r = Some v -> Rabs v < e ->
    mcp_approx (3 * e) lb ub x r.
Proof.
  intros lb ub x r v e Hl Hu Hle Hv He. unfold iti_value in Hv.
  destruct (iti_inner r lb x Hl) as (h & E1 & _ & _ & H1). rewrite E1 in Hv.
  destruct (iti_outer h ub x Hu) as (w & E2 & _ & H2). assert (w = v) as -> by congruence.
  specialize (H2 e He). assert (H0 : 0 < e) by (pose proof (Rabs_pos v); lra).
  destruct H2 as (A & B & C). pose proof (H1 e H0) as H1a. pose proof (H1 (2 * e) ltac:(lra)) as H1b. unfold mcp_approx.
  destruct ub as [|b|]; [contradiction| |]; destruct lb as [|a|]; try contradiction; cbn in *.
  - repeat split; try exact I; try lra; intros; try lra; tauto.
  - destruct H1a as [_ D]. destruct H1b as [F _].
    assert (Hx : a <= x + 3 * e). { destruct (Rlt_dec (x + 2 * e) b) as [Hb|Hb]; [|lra]. specialize (C Hb). lra. }
    repeat split; try lra; intros; lra.
  - repeat split; try exact I; intros; try lra.
  - specialize (C I). repeat split; try exact I; intros; try lra.
Qed.

(** ** The Neumann series *)
Lemma ssmul_rsum : forall b A B n k, ssmul b A B n k = rsum b (fun l => A n k l * B n l).
Proof.
  intros b A B n k. unfold ssmul. induction b as [|b IH]; [reflexivity|]. cbn [for_range rsum]. rewrite IH. reflexivity.
Qed.

Lemma d_filt_value : forall ev n_m n_im n_x M S p i n k, (i < n_m)%nat ->
    d_filt_dx ev n_m n_im n_x M S p i n k = future_effect n_im n_x ev M S p i n k.
Proof.
  intros ev n_m n_im n_x M S p i n k Hi. unfold d_filt_dx.
  match goal with |- for_range _ ?B _ _ _ _ = _ => set (body := B) end.
  pose proof (for_range_inv (fun c (q : tensor) => forall i n k,
     q i n k = if Nat.ltb i c then future_effect n_im n_x ev M S p i n k else p i n k) n_m body p) as H.
  cbv beta in H. rewrite H; [rewrite (proj2 (Nat.ltb_lt _ _) Hi); reflexivity| |].
  - intros. reflexivity.
  - clear i n k Hi H. intros c q Hc Hq i n k. unfold body.
    match goal with |- for_range _ ?B _ _ _ _ = _ => set (body2 := B) end.
    pose proof (for_range_inv (fun j (a : tensor) => forall i n k,
       a i n k = if Nat.eqb i c then rsum j (fun j => rsum n_x (fun l => M i j n k l * ev p i j (S i j n) l)) else q i n k)
       n_im body2 (fun i' n k => if Nat.eqb i' c then 0 else q i' n k)) as H.
    cbv beta in H. rewrite H.
    + destruct (Nat.eqb_spec i c) as [->|Hne].
      * rewrite (proj2 (Nat.ltb_lt c (Datatypes.S c))) by lia. reflexivity.
      * rewrite Hq. destruct (Nat.ltb_spec i c); destruct (Nat.ltb_spec i (Datatypes.S c)); try lia; reflexivity.
    + intros i2 n2 k2. destruct (Nat.eqb_spec i2 c); reflexivity.
    + intros j a Hj Ha i2 n2 k2. unfold body2. rewrite Ha. destruct (Nat.eqb_spec i2 c) as [->|Hne]; [|reflexivity].
      rewrite ssmul_rsum. cbn [rsum]. reflexivity.
Qed.

(** [terms k]: the k-th term. *)
Fixpoint term (L : tensor -> tensor) (d : tensor) (k : nat) : tensor :=
  match k with O => d | S k => L (term L d k) end.

Lemma neumann_sum : forall n_m N n_x L tol fuel nn d k tot r,
    neumann n_m N n_x L tol fuel nn (term L d k) tot = Some r ->
    exists q, (q < fuel)%nat /\ snd r = (nn + q)%nat /\
      (forall i n l, fst r i n l = tot i n l + rsum (S q) (fun c => term L d (k + S c) i n l)) /\
      ((S q < fuel)%nat -> tnorm n_m N n_x (term L d (k + S q)) < tol) /\
      (forall c, (c < q)%nat -> tol <= tnorm n_m N n_x (term L d (k + S c))).
Proof.
  intros n_m N n_x L tol. induction fuel as [|fuel IH]; intros nn d k tot r H; [discriminate|].
  cbn [neumann] in H. change (L (term L d k)) with (term L d (S k)) in H.
  destruct (Rlt_dec (tnorm n_m N n_x (term L d (S k))) tol) as [Hlt|Hge].
  - injection H as <-. exists 0%nat. cbn [fst snd]. split; [lia|]. split; [lia|]. split; [|split].
    + intros. cbn [rsum]. replace (k + 1)%nat with (S k) by lia. cbn [term]. lra.
    + intros _. replace (k + 1)%nat with (S k) by lia. assumption.
    + intros; lia.
  - destruct fuel as [|fuel].
    + injection H as <-. exists 0%nat. cbn [fst snd]. split; [lia|]. split; [lia|]. split; [|split].
      * intros. cbn [rsum]. replace (k + 1)%nat with (S k) by lia. cbn [term]. lra.
      * intros; lia.
      * intros; lia.
    + change (neumann n_m N n_x L tol (S fuel) (S nn) (term L d (S k))
        (fun i n k0 => tot i n k0 + term L d (S k) i n k0) = Some r) in H.
      apply IH in H. destruct H as (q & Hq & Hs & Hsum & Hstop & Hbefore). exists (S q).
      split; [lia|]. split; [lia|]. split; [|split].
      * intros i n l. rewrite Hsum. rewrite (rsum_head (S q)). replace (k + 1)%nat with (S k) by lia.
        rewrite (rsum_ext (S q) (fun c => term L d (S k + S c) i n l) (fun c => term L d (k + S (S c)) i n l)); [lra|].
        intros c Hc. replace (S k + S c)%nat with (k + S (S c))%nat by lia. reflexivity.
      * intros. replace (k + S (S q))%nat with (S k + S q)%nat by lia. apply Hstop. lia.
      * intros c Hc. destruct c as [|c]; [replace (k + 1)%nat with (S k) by lia; lra|].
        replace (k + S (S c))%nat with (S k + S c)%nat by lia. apply Hbefore. lia.
Qed.

Lemma for_range_res_pages : forall {A} N (page : nat -> res A) d (w : nat -> A),
    pages1 N page d = Ok w -> forall n, (n < N)%nat -> page n = Ok (w n).
Proof.
  intros A N page d w H. unfold pages1 in H.
  refine (for_range_res_inv (fun c (acc : nat -> A) => forall n, (n < c)%nat -> page n = Ok (acc n)) _ _ _ _ _ _ H); [intros; lia|].
  intros c acc y Hc Hacc E. destruct (page c) as [a|e] eqn:Ep; [|discriminate]. cbn [bind] in E. injection E as <-.
  intros n Hn. destruct (Nat.eq_dec n c) as [->|Hne]; [rewrite upd_same; assumption|].
  rewrite upd_other by assumption. apply Hacc. lia.
Qed.

Lemma all_pages_ok : forall {A} n_m N (page : nat -> nat -> res A) d w,
    all_pages n_m N page d = Ok w -> forall i n, (i < n_m)%nat -> (n < N)%nat -> page i n = Ok (w i n).
Proof.
  intros A n_m N page d w H. unfold all_pages in H.
  refine (for_range_res_inv (fun c (acc : nat -> nat -> A) => forall i n, (i < c)%nat -> (n < N)%nat -> page i n = Ok (acc i n)) _ _ _ _ _ _ H);
    [intros; lia|].
  intros c acc y Hc Hacc E.
  apply (for_range_res_inv (fun m (b : nat -> nat -> A) =>
            (forall i n, (i < c)%nat -> (n < N)%nat -> page i n = Ok (b i n)) /\
            (forall n, (n < m)%nat -> page c n = Ok (b c n)))) in E.
  - destruct E as (E1 & E2). intros i n Hi Hn. destruct (Nat.eq_dec i c) as [->|Hne]; [apply E2; assumption|apply E1; lia].
  - split; [exact Hacc|intros; lia].
  - intros m b z Hm (H1 & H2) Ez. destruct (page c m) as [a|e] eqn:Ep; [|discriminate]. cbn [bind] in Ez. injection Ez as <-.
    split.
    + intros i n Hi Hn. rewrite upd2_other by lia. apply H1; assumption.
    + intros n Hn. destruct (Nat.eq_dec n m) as [->|Hne]; [rewrite upd2_same; assumption|].
      rewrite upd2_other by lia. apply H2. lia.
Qed.

Lemma solve_pages_ok : forall n_m N n_x D r d,
    solve_pages n_m N n_x D r = Ok d ->
    forall i n k, (i < n_m)%nat -> (n < N)%nat -> (k < n_x)%nat -> present_effect n_x D d i n k = r i n k.
Proof.
  intros n_m N n_x D r d H i n k Hi Hn Hk. unfold solve_pages in H.
  destruct (all_pages _ _ _ _) as [a|e] eqn:E; [|discriminate]. cbn [bind] in H. injection H as <-.
  apply (all_pages_ok _ _ _ _ _ E i n Hi) in Hn.
  pose proof (invert_correct n_x RVec (D i n) (fun k _ => r i n k) (le_n _)) as C. rewrite Hn in C.
  unfold present_effect. destruct (a i n) as [A' B']. destruct C as (_ & C & _). specialize (C 0%nat ltac:(cbn; lia) k Hk). exact C.
Qed.

Lemma premultiply_ok : forall n_m n_im N n_x D J P,
    premultiply n_m n_im N n_x D J = Ok P ->
    forall i j n k l, (i < n_m)%nat -> (j < n_im)%nat -> (n < N)%nat -> (k < n_x)%nat -> (l < n_x)%nat ->
      rsum n_x (fun m => D i n k m * P i j n m l) = - J i j n k l.
Proof.
  intros n_m n_im N n_x D J P H i j n k l Hi Hj Hn Hk Hl. unfold premultiply in H.
  destruct (all_pages _ _ _ _) as [a|e] eqn:E; [|discriminate]. cbn [bind] in H. injection H as <-.
  pose proof (all_pages_ok _ _ _ _ _ E i j Hi Hj) as E2. apply (for_range_res_pages _ _ _ _ E2) in Hn.
  pose proof (invert_correct n_x (RMat n_x) (D i n) (fun k l => - J i j n k l) (le_n _)) as C. rewrite Hn in C.
  destruct (a i j n) as [A' B']. destruct C as (_ & C & _). specialize (C l Hl k Hk). exact C.
Qed.

Section Neumann.
  Variable ev : tensor -> nat -> nat -> list R -> nat -> R.
  Variable n_m n_im N n_x : nat.
  Variable P : nat -> nat -> nat -> nat -> nat -> R.
  Variable fut_S : nat -> nat -> nat -> list R.
  Hypothesis Hev : linear_rule n_m n_im N n_x ev.
  Notation L := (d_filt_dx ev n_m n_im n_x P fut_S).

  Lemma L_linear : forall a b p q r,
      (forall i n k, (i < n_m)%nat -> (n < N)%nat -> (k < n_x)%nat -> r i n k = a * p i n k + b * q i n k) ->
      forall i n k, (i < n_m)%nat -> L r i n k = a * L p i n k + b * L q i n k.
  Proof.
    intros a b p q r H i n k Hi. rewrite !d_filt_value by assumption. unfold future_effect.
    rewrite <- !rsum_scal, <- rsum_plus. apply rsum_ext. intros j Hj.
    rewrite <- !rsum_scal, <- rsum_plus. apply rsum_ext. intros l Hl.
    rewrite (Hev a b p q r H) by assumption. ring.
  Qed.

  Lemma L_sum : forall d c (p : tensor) , (forall i n k, p i n k = rsum c (fun e => term L d e i n k)) ->
      forall i n k, (i < n_m)%nat -> L p i n k = rsum c (fun e => term L d (S e) i n k).
  Proof.
    intros d. induction c as [|c IH]; intros p Hp i n k Hi.
    - rewrite (L_linear 0 0 p p p) by (try assumption; intros; rewrite Hp; cbn; lra). cbn [rsum]. lra.
    - cbn [rsum].
      rewrite (L_linear 1 1 (fun i n k => rsum c (fun e => term L d e i n k)) (term L d c) p)
        by (try assumption; intros; rewrite Hp; cbn [rsum]; lra).
      rewrite (IH (fun i n k => rsum c (fun e => term L d e i n k)) ltac:(reflexivity)) by assumption.
      change (term L d (S c)) with (L (term L d c)). lra.
  Qed.
End Neumann.

(** Terms of the series and the system solved by their sum. *)
Lemma invert_jac_sum : forall ev n_m n_im N n_x r D P fut_S tol maxit tot nn,
    linear_rule n_m n_im N n_x ev ->
    invert_jac ev n_m n_im N n_x r D P fut_S tol maxit = Ok (tot, nn) ->
    exists t : nat -> tensor,
      (forall i n k, (i < n_m)%nat -> (n < N)%nat -> (k < n_x)%nat -> present_effect n_x D (t 0%nat) i n k = r i n k) /\
      (forall c i n k, (i < n_m)%nat -> t (S c) i n k = future_effect n_im n_x ev P fut_S (t c) i n k) /\
      (forall i n k, tot i n k = rsum (nn + 2) (fun c => t c i n k)) /\
      (forall i n k, (i < n_m)%nat ->
         tot i n k - future_effect n_im n_x ev P fut_S tot i n k = t 0%nat i n k - t (nn + 2)%nat i n k) /\
      (nn < maxit)%nat /\
      ((nn + 1 < maxit)%nat -> tnorm n_m N n_x (t (nn + 1)%nat) < tol) /\
      (forall c, (c < nn)%nat -> tol <= tnorm n_m N n_x (t (c + 1)%nat)).
Proof.
  intros ev n_m n_im N n_x r D P fut_S tol maxit tot nn Hev H. unfold invert_jac in H.
  destruct (solve_pages n_m N n_x D r) as [d|e] eqn:Ed; [|discriminate]. cbn [bind] in H.
  set (L := d_filt_dx ev n_m n_im n_x P fut_S) in *.
  destruct (neumann n_m N n_x L tol maxit 0 d d) as [a|] eqn:En; [|discriminate]. injection H as ->.
  change d with (term L d 0) in En at 1. apply neumann_sum in En.
  destruct En as (q & Hq & Hs & Hsum & Hstop & Hbefore). cbn [fst snd] in *. rewrite Nat.add_0_l in Hs. subst q.
  assert (Ht : forall i n k, tot i n k = rsum (nn + 2) (fun c => term L d c i n k)).
  { intros i n k. rewrite Hsum. replace (nn + 2)%nat with (S (S nn)) by lia. rewrite (rsum_head (S nn)).
    reflexivity. }
  exists (term L d). split; [exact (solve_pages_ok _ _ _ _ _ _ Ed)|]. split.
  { intros c i n k Hi. cbn [term]. apply d_filt_value. assumption. }
  split; [exact Ht|]. split.
  { intros i n k Hi. rewrite <- (d_filt_value ev n_m n_im n_x P fut_S tot i n k Hi). fold L.
    rewrite (L_sum ev n_m n_im N n_x P fut_S Hev d (nn + 2) tot Ht) by assumption. fold L. rewrite Ht.
    replace (nn + 2)%nat with (S (S nn)) by lia.
    pose proof (rsum_telescope (S (S nn)) (fun c => term L d c i n k)) as T. rewrite rsum_minus in T.
    change (term L d 0) with d in *. lra. }
  split; [lia|]. split.
  - intros. specialize (Hstop ltac:(lia)). rewrite Nat.add_1_r. exact Hstop.
  - intros c Hc. rewrite Nat.add_1_r. apply Hbefore. assumption.
Qed.

Lemma present_future : forall ev n_m n_im N n_x D J P fut_S p,
    premultiply n_m n_im N n_x D J = Ok P ->
    forall i n k, (i < n_m)%nat -> (n < N)%nat -> (k < n_x)%nat ->
      present_effect n_x D (future_effect n_im n_x ev P fut_S p) i n k = - future_effect n_im n_x ev J fut_S p i n k.
Proof.
  intros ev n_m n_im N n_x D J P fut_S p HP i n k Hi Hn Hk. unfold present_effect, future_effect.
  rewrite (rsum_ext n_x (fun l => D i n k l * rsum n_im (fun j => rsum n_x (fun l0 => P i j n l l0 * ev p i j (fut_S i j n) l0)))
    (fun l => rsum n_im (fun j => rsum n_x (fun l0 => (D i n k l * P i j n l l0) * ev p i j (fut_S i j n) l0)))).
  2:{ intros l Hl. rewrite <- rsum_scal. apply rsum_ext. intros j Hj. rewrite <- rsum_scal. apply rsum_ext. intros. ring. }
  rewrite rsum_swap, <- rsum_opp. apply rsum_ext. intros j Hj. rewrite rsum_swap, <- rsum_opp. apply rsum_ext. intros l Hl.
  rewrite rsum_scal_r. rewrite (premultiply_ok _ _ _ _ _ _ _ HP i j n k l) by assumption. ring.
Qed.

Lemma newton_step : forall ev n_m n_im N n_x r D J P fut_S tol maxit tot nn,
    linear_rule n_m n_im N n_x ev ->
    premultiply n_m n_im N n_x D J = Ok P ->
    invert_jac ev n_m n_im N n_x r D P fut_S tol maxit = Ok (tot, nn) ->
    exists last : tensor,
      newton_system n_m n_im N n_x ev D J fut_S r tot
        (present_effect n_x D (future_effect n_im n_x ev P fut_S last)) /\
      (nn < maxit)%nat /\
      ((nn + 1 < maxit)%nat -> tnorm n_m N n_x last < tol).
Proof.
  intros ev n_m n_im N n_x r D J P fut_S tol maxit tot nn Hev HP H.
  destruct (invert_jac_sum _ _ _ _ _ _ _ _ _ _ _ _ _ Hev H) as (t & H0 & HS & Ht & Hsys & Hnn & Hstop & _).
  exists (t (nn + 1)%nat). split; [|split; assumption].
  intros i n k Hi Hn Hk. rewrite <- (H0 i n k Hi Hn Hk).
  pose proof (present_future ev n_m n_im N n_x D J P fut_S tot HP i n k Hi Hn Hk) as PF.
  replace (future_effect n_im n_x ev J fut_S tot i n k)
    with (- present_effect n_x D (future_effect n_im n_x ev P fut_S tot) i n k) by lra.
  unfold present_effect in *.
  rewrite (rsum_ext n_x (fun l => D i n k l * t 0%nat i n l)
    (fun l => D i n k l * tot i n l - D i n k l * future_effect n_im n_x ev P fut_S tot i n l
              + D i n k l * future_effect n_im n_x ev P fut_S (t (nn + 1)%nat) i n l)).
  - rewrite rsum_plus, rsum_minus. lra.
  - intros l Hl. specialize (Hsys i n l Hi). replace (nn + 2)%nat with (S (nn + 1)) in Hsys by lia.
    rewrite HS in Hsys by assumption.
    replace (t 0%nat i n l) with (tot i n l - future_effect n_im n_x ev P fut_S tot i n l
       + future_effect n_im n_x ev P fut_S (t (nn + 1)%nat) i n l) by lra. ring.
Qed.

(** Distance to the exact step when the future effect is a contraction. *)
Lemma tnorm_ge : forall n_m N n_x x i n k, (i < n_m)%nat -> (n < N)%nat -> (k < n_x)%nat ->
    Rabs (x i n k) <= tnorm n_m N n_x x.
Proof.
  intros n_m N n_x x i n k Hi Hn Hk. unfold tnorm.
  pose proof (supnorm_ge (n_m * N * n_x) (flatten N n_x x) ((i * N + n) * n_x + k)) as H.
  rewrite flatten_at in H by lia. apply H. assert (i * N + n < n_m * N)%nat by nia. nia.
Qed.
Lemma tnorm_le : forall n_m N n_x x c, 0 <= c ->
    (forall i n k, (i < n_m)%nat -> (n < N)%nat -> (k < n_x)%nat -> Rabs (x i n k) <= c) -> tnorm n_m N n_x x <= c.
Proof.
  intros n_m N n_x x c Hc H. unfold tnorm. apply supnorm_le; [assumption|]. intros q Hq. unfold flatten.
  assert (0 < n_x /\ 0 < N)%nat as [Hx HN] by (split; nia).
  apply H.
  - apply Nat.div_lt_upper_bound; [lia|]. apply Nat.div_lt_upper_bound; [lia|]. nia.
  - apply Nat.mod_upper_bound. lia.
  - apply Nat.mod_upper_bound. lia.
Qed.

Lemma neumann_error : forall ev n_m n_im N n_x r D P fut_S tol maxit tot nn lam xs,
    linear_rule n_m n_im N n_x ev ->
    invert_jac ev n_m n_im N n_x r D P fut_S tol maxit = Ok (tot, nn) ->
    0 <= lam < 1 ->
    (forall p, tnorm n_m N n_x (future_effect n_im n_x ev P fut_S p) <= lam * tnorm n_m N n_x p) ->
    (forall i n k, (i < n_m)%nat -> (n < N)%nat -> (k < n_x)%nat ->
       present_effect n_x D (fun i n k => xs i n k - future_effect n_im n_x ev P fut_S xs i n k) i n k = r i n k) ->
    (forall i n, (i < n_m)%nat -> (n < N)%nat -> ~ singular n_x (D i n)) ->
    (nn + 1 < maxit)%nat ->
    tnorm n_m N n_x (fun i n k => tot i n k - xs i n k) <= lam / (1 - lam) * tol.
Proof.
  intros ev n_m n_im N n_x r D P fut_S tol maxit tot nn lam xs Hev H Hlam HL Hxs Hns Hlt.
  destruct (invert_jac_sum _ _ _ _ _ _ _ _ _ _ _ _ _ Hev H) as (t & H0 & HS & Ht & Hsys & Hnn & Hstop & _).
  specialize (Hstop Hlt).
  set (e := fun i n k => tot i n k - xs i n k).
  set (L := future_effect n_im n_x ev P fut_S) in *.
  (* e = L e - t (nn+2) in range *)
  assert (Hsame : forall i n k, (i < n_m)%nat -> (n < N)%nat -> (k < n_x)%nat -> t 0%nat i n k = xs i n k - L xs i n k).
  { intros i n k Hi Hn Hk. destruct (Req_dec (t 0%nat i n k) (xs i n k - L xs i n k)) as [|Hne]; [assumption|exfalso].
    apply (Hns i n Hi Hn). exists (fun k => t 0%nat i n k - (xs i n k - L xs i n k)). split.
    - exists k. split; [assumption|lra].
    - intros l Hl. unfold mat_vec. specialize (H0 i n l Hi Hn Hl). specialize (Hxs i n l Hi Hn Hl).
      unfold present_effect in *. rewrite (rsum_ext n_x _ (fun m => D i n l m * t 0%nat i n m - D i n l m * (xs i n m - L xs i n m))) by (intros; ring).
      rewrite rsum_minus. lra. }
  assert (Le : forall i n k, (i < n_m)%nat -> (n < N)%nat -> (k < n_x)%nat -> L e i n k = L tot i n k - L xs i n k).
  { intros i n k Hi Hn Hk. pose proof (L_linear ev n_m n_im N n_x P fut_S Hev 1 (-1) tot xs e) as Q.
    specialize (Q ltac:(intros; unfold e; lra) i n k Hi). rewrite !d_filt_value in Q by assumption. unfold L. lra. }
  assert (Hn : 0 <= tnorm n_m N n_x e) by apply supnorm_nonneg.
  assert (Hl : 0 <= tnorm n_m N n_x (t (nn + 1)%nat)) by apply supnorm_nonneg.
  assert (B : tnorm n_m N n_x e <= lam * tnorm n_m N n_x e + lam * tnorm n_m N n_x (t (nn + 1)%nat)).
  { apply tnorm_le; [nra|]. intros i n k Hi Hnn' Hk.
    replace (e i n k) with (L e i n k + - L (t (nn + 1)%nat) i n k).
    - eapply Rle_trans; [apply Rabs_triang|]. rewrite Rabs_Ropp. apply Rplus_le_compat.
      + eapply Rle_trans; [|apply HL]. apply tnorm_ge; assumption.
      + eapply Rle_trans; [|apply HL]. apply tnorm_ge; assumption.
    - rewrite Le by assumption. specialize (Hsys i n k Hi). replace (nn + 2)%nat with (S (nn + 1)) in Hsys by lia.
      rewrite HS in Hsys by assumption. fold L in Hsys. rewrite (Hsame i n k) in Hsys by assumption. unfold e. lra. }
  assert (C : (1 - lam) * tnorm n_m N n_x e <= lam * tol) by nra.
  apply (Rmult_le_reg_l (1 - lam)); [lra|]. replace ((1 - lam) * (lam / (1 - lam) * tol)) with (lam * tol) by (field; lra).
  exact C.
Qed.

(** ** The outer loop *)
Section Run.
  Variable g : list R -> list R -> list R -> list R -> list R.
  Variable f : list R -> list R -> list R -> list R -> list R -> list R -> nat -> R.
  Variable exo : dexo.
  Variable s : list (list R).
  Variable n_x : nat.
  Variable interpolate : tensor -> nat -> nat -> list R -> list R.
  Variable lb ub : tensor_ext.
  Variable compl : bool.
  Variable nan : R.
  Notation dp := (ex_dp exo).
  Notation N := (length s).
  Notation n_m := (Nat.max (ex_n exo) 1).
  Notation res_of := (iti_res g f exo s n_x interpolate lb ub compl nan).
  Notation err_of := (error_at g f exo s n_x interpolate lb ub compl nan).
  Notation pass := (pass g f exo s n_x interpolate lb ub compl nan).
  Notation trial := (trial_err g f exo s n_x interpolate lb ub compl nan).
  Notation step := (iti_step g f exo s n_x interpolate lb ub compl nan).

  Lemma euler_total_value : forall phi x i n k,
      (forall i, (i < ex_n exo)%nat -> dp_n dp i = dp_n dp 0) -> (i < ex_n exo)%nat -> (n < N)%nat ->
      euler_total g f exo s n_x phi x i n k = eul g f exo s n_x phi x (dp_n dp i) i n k.
  Proof.
    intros phi x i n k Hc Hi Hn. rewrite <- residuals_total_value by assumption.
    unfold euler_total, residuals_total. rewrite Nat.max_l by lia.
    match goal with |- ?a i n k = ?b i n k => assert (E : a = b) end; [|rewrite E; reflexivity].
    apply for_range_ext. intros c acc Hcc. rewrite (Hc c Hcc). reflexivity.
  Qed.

  Lemma trial_err_of : forall x, trial x = err_of x.
  Proof.
    intros x. unfold error_at, trial_err, iti_res, tnorm. unfold supnorm.
    assert (E : forall n (u v : nat -> R), (forall q, u q = v q) -> vmax n u = vmax n v).
    { induction n as [|n IH]; intros u v H; cbn [vmax]; [reflexivity|]. rewrite (IH u v H), H. reflexivity. }
    apply E. intros q. unfold flatten. destruct compl; [|reflexivity]. unfold iti_smoothed.
    destruct (iti_value _ _ _ _); cbn [orn]; [rewrite Rabs_Ropp; reflexivity|reflexivity].
  Qed.

  Lemma backsteps_spec : forall fuel b0 e x tot y,
      backsteps g f exo s n_x interpolate lb ub compl nan fuel b0 e x tot = Some y ->
      exists b, (b0 <= b < b0 + fuel)%nat /\ y = (fun i n k => x i n k - tot i n k * (/ 2) ^ b) /\
        (err_of y < e \/ b = (b0 + fuel - 1)%nat) /\
        (forall c, (b0 <= c < b)%nat -> e <= err_of (fun i n k => x i n k - tot i n k * (/ 2) ^ c)).
  Proof.
    induction fuel as [|fuel IH]; intros b0 e x tot y H; [discriminate|]. cbn [backsteps] in H.
    rewrite trial_err_of in H.
    destruct (Rlt_dec (err_of (fun i n k => x i n k - tot i n k * (/ 2) ^ b0)) e) as [Hlt|Hge].
    - injection H as <-. exists b0. split; [lia|]. split; [reflexivity|]. split; [left; assumption|intros; lia].
    - destruct fuel as [|fuel].
      + injection H as <-. exists b0. split; [lia|]. split; [reflexivity|]. split; [right; lia|intros; lia].
      + apply IH in H. destruct H as (b & Hb & Ey & Ho & Hc). exists b. split; [lia|]. split; [assumption|]. split.
        * destruct Ho; [left; assumption|right; lia].
        * intros c Hcb. destruct (Nat.eq_dec c b0) as [->|Hne]; [lra|]. apply Hc. lia.
  Qed.

  Lemma iti_loop_run : forall tol maxb smaxit fuel it x r,
      iti_loop g f exo s n_x interpolate lb ub compl nan tol maxb smaxit fuel it x = Ok r ->
      exists c p nn tot,
        (c < fuel)%nat /\ iti_N r = (it + c)%nat /\
        updates (fun x y => tol <= err_of x /\ pass tol maxb smaxit x y) c x p /\
        iti_f_x r = err_of p /\ step tol smaxit p = Ok (tot, nn) /\ iti_d_x r = tnorm n_m N n_x tot /\
        (iti_converged r = true -> iti_x r = p /\ err_of p < tol) /\
        (iti_converged r = false -> S c = fuel /\ tol <= err_of p /\ pass tol maxb smaxit p (iti_x r)).
  Proof.
    intros tol maxb smaxit. induction fuel as [|fuel IH]; intros it x r H; [discriminate|]. cbn [iti_loop] in H.
    fold (err_of x) in H.
    destruct (step tol smaxit x) as [[tot nn]|e] eqn:Es; [|discriminate]. cbn [bind fst] in H.
    destruct (backsteps _ _ _ _ _ _ _ _ _ _ maxb 0 _ x tot) as [y|] eqn:Eb; [|discriminate].
    apply backsteps_spec in Eb. destruct Eb as (b & Hb & Ey & Ho & Hc).
    assert (Hp : pass tol maxb smaxit x y).
    { exists tot, nn, b. split; [assumption|]. split; [lia|]. split; [intros; rewrite Ey; reflexivity|]. split.
      - destruct Ho; [left; assumption|right; lia].
      - intros c Hcb. apply Hc. lia. }
    destruct (Rlt_dec (err_of x) tol) as [Hlt|Hge].
    - injection H as <-. exists 0%nat, x, nn, tot. cbn [iti_N iti_f_x iti_d_x iti_converged iti_x].
      repeat split; try lia; try reflexivity; try assumption; try constructor; discriminate.
    - destruct fuel as [|fuel].
      + injection H as <-. exists 0%nat, x, nn, tot. cbn [iti_N iti_f_x iti_d_x iti_converged iti_x].
        split; [lia|]. split; [lia|]. split; [constructor|]. split; [reflexivity|]. split; [assumption|].
        split; [reflexivity|]. split; [discriminate|]. intros _. split; [reflexivity|]. split; [lra|assumption].
      + change (iti_loop g f exo s n_x interpolate lb ub compl nan tol maxb smaxit (S fuel) (S it) y = Ok r) in H.
        apply IH in H. destruct H as (c & p & nn' & tot' & H1 & H2 & H3 & H4 & H5 & H6 & H7 & H8).
        exists (S c), p, nn', tot'. split; [lia|]. split; [lia|]. split; [|split; [assumption|]].
        * econstructor; [|exact H3]. split; [lra|assumption].
        * split; [assumption|]. split; [assumption|]. split; [assumption|]. intros Hf. destruct (H8 Hf). split; [lia|assumption].
  Qed.

  Lemma iti_run : forall tol maxb smaxit maxit x0 r,
      improved_time_iteration g f exo s n_x interpolate lb ub compl nan tol maxb smaxit maxit x0 = Ok r ->
      exists p nn tot,
        (iti_N r < maxit)%nat /\
        updates (fun x y => tol <= err_of x /\ pass tol maxb smaxit x y) (iti_N r) x0 p /\
        iti_f_x r = err_of p /\ step tol smaxit p = Ok (tot, nn) /\ iti_d_x r = tnorm n_m N n_x tot /\
        (iti_converged r = true -> iti_x r = p /\ err_of p < tol) /\
        (iti_converged r = false -> S (iti_N r) = maxit /\ tol <= err_of p /\ pass tol maxb smaxit p (iti_x r)).
  Proof.
    intros tol maxb smaxit maxit x0 r H. unfold improved_time_iteration in H.
    destruct (Nat.eqb_spec (ex_n exo) 0); [discriminate|]. destruct (Nat.eqb_spec maxit 0); [discriminate|].
    destruct (Nat.eqb_spec (n_m * N * n_x) 0); [discriminate|]. apply iti_loop_run in H.
    destruct H as (c & p & nn & tot & H1 & H2 & H3). rewrite Nat.add_0_l in H2. rewrite <- H2 in *.
    exists p, nn, tot. split; [assumption|]. exact H3.
  Qed.

  Hypothesis Hconst : forall i, (i < ex_n exo)%nat -> dp_n dp i = dp_n dp 0.
  Notation E x i n k := (euler g f (dp_n dp i) (dp_weight dp i) (dp_node dp i) (interpolate x i)
                           (ex_node exo i) (nth n s []) (at_node n_x x i n) k).

  Lemma iti_converged_entry : forall tol maxb smaxit maxit x0 r,
      improved_time_iteration g f exo s n_x interpolate lb ub compl nan tol maxb smaxit maxit x0 = Ok r ->
      iti_converged r = true ->
      iti_f_x r < tol /\
      forall i n k, (i < ex_n exo)%nat -> (n < N)%nat -> (k < n_x)%nat ->
        (if compl then Rabs (orn nan (iti_value (lb i n k) (ub i n k) (iti_x r i n k) (E (iti_x r) i n k))) <= iti_f_x r
         else Rabs (E (iti_x r) i n k) <= iti_f_x r).
  Proof.
    intros tol maxb smaxit maxit x0 r H Hc. apply iti_run in H.
    destruct H as (p & nn & tot & _ & _ & Hf & _ & _ & Hx & _). destruct (Hx Hc) as [Ex Hlt]. rewrite Ex, Hf.
    split; [assumption|]. intros i n k Hi Hn Hk.
    pose proof (tnorm_ge n_m N n_x (res_of p) i n k ltac:(lia) Hn Hk) as G. fold (err_of p) in G. unfold iti_res in G at 1.
    rewrite euler_total_value in G by assumption. destruct compl; [|exact G].
    unfold iti_smoothed in G. unfold eul in G. destruct (iti_value _ _ _ _); cbn [orn] in G |- *; [rewrite Rabs_Ropp in G|]; exact G.
  Qed.
End Run.

Lemma iti_converged_free : forall g f exo s n_x interpolate lb ub nan tol maxb smaxit maxit x0 r,
    (forall i, (i < ex_n exo)%nat -> dp_n (ex_dp exo) i = dp_n (ex_dp exo) 0) ->
    improved_time_iteration g f exo s n_x interpolate lb ub false nan tol maxb smaxit maxit x0 = Ok r ->
    iti_converged r = true ->
    iti_f_x r < tol /\
    forall i n k, (i < ex_n exo)%nat -> (n < length s)%nat -> (k < n_x)%nat ->
      Rabs (euler g f (dp_n (ex_dp exo) i) (dp_weight (ex_dp exo) i) (dp_node (ex_dp exo) i) (interpolate (iti_x r) i)
              (ex_node exo i) (nth n s []) (at_node n_x (iti_x r) i n) k) <= iti_f_x r.
Proof.
  intros g f exo s n_x interpolate lb ub nan tol maxb smaxit maxit x0 r Hc H Hconv.
  exact (iti_converged_entry g f exo s n_x interpolate lb ub false nan Hc tol maxb smaxit maxit x0 r H Hconv).
Qed.

Lemma iti_converged_bounds : forall g f exo s n_x interpolate lb ub nan tol maxb smaxit maxit x0 r,
    (forall i, (i < ex_n exo)%nat -> dp_n (ex_dp exo) i = dp_n (ex_dp exo) 0) ->
    (forall i n k, (i < ex_n exo)%nat -> (n < length s)%nat -> (k < n_x)%nat ->
       lb i n k <> PInf /\ ub i n k <> MInf /\ ext_le (lb i n k) (ub i n k)) ->
    improved_time_iteration g f exo s n_x interpolate lb ub true nan tol maxb smaxit maxit x0 = Ok r ->
    iti_converged r = true ->
    iti_f_x r < tol /\
    forall i n k, (i < ex_n exo)%nat -> (n < length s)%nat -> (k < n_x)%nat ->
      mcp_approx (3 * tol) (lb i n k) (ub i n k) (iti_x r i n k)
        (euler g f (dp_n (ex_dp exo) i) (dp_weight (ex_dp exo) i) (dp_node (ex_dp exo) i) (interpolate (iti_x r) i)
              (ex_node exo i) (nth n s []) (at_node n_x (iti_x r) i n) k).
Proof.
  intros g f exo s n_x interpolate lb ub nan tol maxb smaxit maxit x0 r Hc Hb H Hconv.
  destruct (iti_converged_entry g f exo s n_x interpolate lb ub true nan Hc tol maxb smaxit maxit x0 r H Hconv) as [Hlt He].
  split; [assumption|]. intros i n k Hi Hn Hk. specialize (He i n k Hi Hn Hk). cbv iota in He.
  destruct (Hb i n k Hi Hn Hk) as (H1 & H2 & H3).
  match type of He with context [iti_value ?a ?b ?c ?d] => destruct (iti_value a b c d) as [v|] eqn:Ev end.
  - cbn [orn] in He. apply (iti_value_approx _ _ _ _ v); try assumption. lra.
  - exfalso. unfold iti_value in Ev.
    match type of Ev with context [iti_smooth ?rr (above ?x ?l)] =>
      destruct (iti_inner rr l x H1) as (h & E1 & _) end.
    rewrite E1 in Ev.
    match type of Ev with context [below ?u ?x] => destruct (iti_outer h u x H2) as (v & E2 & _) end. congruence.
Qed.

(** ** Two small runs: one state, one control, an arbitrage equation h(x) = 0. *)
Definition eq_of (h : R -> R) (m s x M S X : list R) (k : nat) : R := h (hd 0 x).
Definition const_ip (x : tensor) (i j : nat) (S : list R) : list R := [x i 0%nat 0%nat].

Lemma invert_one : forall k A B, rhs_cols 1 k = 1%nat -> rhs_visited 1 k = 1%nat -> A 0%nat 0%nat <> 0 ->
    exists a, invert 1 k A B = Ok a /\ snd a 0%nat 0%nat = B 0%nat 0%nat / A 0%nat 0%nat.
Proof.
  intros k A B Hc Hv Ha. pose proof (invert_correct 1 k A B ltac:(lia)) as C.
  destruct (invert 1 k A B) as [[A' B']|e].
  - exists (A', B'). split; [reflexivity|]. destruct C as (_ & C & _). specialize (C 0%nat ltac:(lia) 0%nat ltac:(lia)).
    unfold mat_vec in C. cbn in C |- *. apply (Rmult_eq_reg_l (A 0%nat 0%nat)); [|assumption].
    transitivity (B 0%nat 0%nat); [lra|]. field. assumption.
  - destruct C as (z & (i & Hi & Hz) & Hs). assert (i = 0%nat) as -> by lia. specialize (Hs 0%nat Hi). unfold mat_vec in Hs. cbn in Hs.
    exfalso. assert (A 0%nat 0%nat * z 0%nat = 0) as Hp by lra. apply Rmult_integral in Hp. tauto.
Qed.

Lemma tnorm_one : forall x, tnorm 1 1 1 x = Rabs (x 0%nat 0%nat 0%nat).
Proof. intros. unfold tnorm, supnorm. cbn. apply Rmax_right. apply Rabs_pos. Qed.

Section SmallITI.
  Variable h : R -> R.
  Variable lb ub : tensor_ext.
  Variable nan : R.
  Variable ip : tensor -> nat -> nat -> list R -> list R.
  Notation res_of := (iti_res (fun _ s _ _ => s) (eq_of h) one_exo [[0]] 1 ip lb ub false nan).
  Notation step := (iti_step (fun _ s _ _ => s) (eq_of h) one_exo [[0]] 1 ip lb ub false nan).
  Notation dres := (iti_dres_c (fun _ s _ _ => s) (eq_of h) one_exo [[0]] 1 ip lb ub false nan).
  Notation jres := (iti_jres_c (fun _ s _ _ => s) (eq_of h) one_exo [[0]] 1 ip lb ub false nan).
  Notation x00 x := (x 0%nat 0%nat 0%nat).

  Lemma sm_total : forall phi x, euler_total (fun _ s _ _ => s) (eq_of h) one_exo [[0]] 1 phi x 0%nat 0%nat 0%nat = h (x00 x).
  Proof. intros. unfold euler_total, eq_of. cbn. lra. Qed.

  Lemma sm_res : forall x : tensor, x00 (res_of x) = h (x00 x).
  Proof. intros. unfold iti_res. rewrite sm_total. reflexivity. Qed.

  Lemma sm_dres : forall x : tensor, dres x 0%nat 0%nat 0%nat 0%nat = (h (x00 x + serial_eps) - h (x00 x)) / serial_eps.
  Proof. intros. unfold iti_dres_c, iti_row_factors, iti_dres. rewrite !sm_total. cbn [fst snd Nat.eqb shift_control]. lra. Qed.

  Lemma sm_jres : forall x : tensor, jres x 0%nat 0%nat 0%nat 0%nat 0%nat = 0.
  Proof. intros. unfold iti_jres_c, iti_row_factors, iti_jres, eq_of. cbn. lra. Qed.

  Lemma sm_step : forall tol smaxit (x : tensor), 0 < tol -> (0 < smaxit)%nat -> h (x00 x + serial_eps) <> h (x00 x) ->
      exists tot nn, step tol smaxit x = Ok (tot, nn) /\
        x00 tot = h (x00 x) / ((h (x00 x + serial_eps) - h (x00 x)) / serial_eps).
  Proof.
    intros tol smaxit x Ht Hm Hd. set (d := (h (x00 x + serial_eps) - h (x00 x)) / serial_eps).
    assert (Hd0 : d <> 0).
    { unfold d, serial_eps in *. intro Q. apply Hd. apply (f_equal (fun z => z * (1/100000000))) in Q.
      unfold Rdiv in Q at 1. rewrite Rmult_assoc, Rinv_l in Q by lra. lra. }
    unfold iti_step. change (Nat.max (ex_n one_exo) 1) with 1%nat. change (dp_n (ex_dp one_exo) 0) with 1%nat.
    change (length [[0]]) with 1%nat.
    unfold premultiply, all_pages, pages1. cbn [for_range_res bind].
    destruct (invert_one (RMat 1) (dres x 0%nat 0%nat) (fun k l => - jres x 0%nat 0%nat 0%nat k l) eq_refl eq_refl
      ltac:(rewrite sm_dres; exact Hd0)) as (a & Ea & Ha).
    rewrite Ea. cbn [bind]. unfold invert_jac, solve_pages, all_pages. cbn [for_range_res bind].
    destruct (invert_one RVec (dres x 0%nat 0%nat) (fun k _ => res_of x 0%nat 0%nat k) eq_refl eq_refl
      ltac:(rewrite sm_dres; exact Hd0)) as (b & Eb & Hb).
    rewrite Eb. cbn [bind].
    match goal with |- context [neumann _ _ _ ?L _ _ _ ?d0 _] => set (LL := L); set (dd := d0) end.
    assert (Z : x00 (LL dd) = 0).
    { unfold LL. rewrite d_filt_value by lia. unfold future_effect. cbn [rsum].
      rewrite upd2_same. unfold upd. cbn [Nat.eqb]. rewrite Ha, sm_jres. unfold Rdiv. lra. }
    destruct smaxit as [|sm]; [lia|]. cbn [neumann]. rewrite tnorm_one, Z, Rabs_R0.
    destruct (Rlt_dec 0 tol) as [_|]; [|lra]. exists (fun i n k => dd i n k + LL dd i n k), 0%nat. split; [reflexivity|].
    rewrite Z. unfold dd. rewrite upd2_same, Hb, sm_dres, sm_res. fold d. lra.
  Qed.

  Lemma sm_err : forall x : tensor, tnorm 1 1 1 (res_of x) = Rabs (h (x00 x)).
  Proof. intros. rewrite tnorm_one, sm_res. reflexivity. Qed.

  Lemma sm_trial : forall x : tensor,
      trial_err (fun _ s _ _ => s) (eq_of h) one_exo [[0]] 1 ip lb ub false nan x = Rabs (h (x00 x)).
  Proof. intros. rewrite trial_err_of. unfold error_at. change (Nat.max (ex_n one_exo) 1) with 1%nat. apply sm_err. Qed.
End SmallITI.

Section SmallLoop.
  Variable h : R -> R.
  Variable lb ub : tensor_ext.
  Variable nan : R.
  Variable ip : tensor -> nat -> nat -> list R -> list R.
  Notation loop := (iti_loop (fun _ s _ _ => s) (eq_of h) one_exo [[0]] 1 ip lb ub false nan).
  Notation back := (backsteps (fun _ s _ _ => s) (eq_of h) one_exo [[0]] 1 ip lb ub false nan).
  Notation x00 x := (x 0%nat 0%nat 0%nat).

  Lemma sm_back_some : forall fuel b e x tot, (0 < fuel)%nat -> exists y, back fuel b e x tot = Some y.
  Proof.
    induction fuel as [|fuel IH]; intros b e x tot Hf; [lia|]. cbn [backsteps].
    destruct (Rlt_dec _ e); [eexists; reflexivity|]. destruct fuel as [|fuel]; [eexists; reflexivity|]. apply IH. lia.
  Qed.

  (** Stops at [x] when the error there is small. *)
  Lemma sm_stop : forall tol maxb smaxit fuel it x,
      0 < tol -> (0 < smaxit)%nat -> (0 < maxb)%nat -> h (x00 x + serial_eps) <> h (x00 x) -> Rabs (h (x00 x)) < tol ->
      exists r, loop tol maxb smaxit (S fuel) it x = Ok r /\ iti_converged r = true /\ iti_N r = it /\ iti_x r = x /\
        iti_f_x r = Rabs (h (x00 x)).
  Proof.
    intros tol maxb smaxit fuel it x Ht Hs Hm Hd He. cbn [iti_loop]. cbv zeta.
    change (Nat.max (ex_n one_exo) 1) with 1%nat. change (length [[0]]) with 1%nat. rewrite sm_err.
    destruct (sm_step h lb ub nan ip tol smaxit x Ht Hs Hd) as (tot & nn & -> & Et). cbn [bind fst].
    destruct (sm_back_some maxb 0 (Rabs (h (x00 x))) x tot Hm) as (y & ->).
    destruct (Rlt_dec (Rabs (h (x00 x))) tol) as [_|]; [|contradiction].
    eexists. split; [reflexivity|]. repeat split.
  Qed.
End SmallLoop.

(** Arbitrage x = 2, from x = 0: converges. *)
Lemma iti_small_run_any : forall ip lb ub nan, exists r,
    improved_time_iteration (fun _ s _ _ => s) (eq_of (fun x => x - 2)) one_exo [[0]] 1 ip lb ub false nan
      (1 / 1000) 10 5 5 (fun _ _ _ => 0) = Ok r /\
    iti_converged r = true /\ iti_N r = 1%nat /\ iti_x r 0%nat 0%nat 0%nat = 2 /\ iti_f_x r = 0.
Proof.
  intros ip lb ub nan. set (h := fun x => x - 2).
  unfold improved_time_iteration. change (Nat.eqb (ex_n one_exo) 0) with false. cbn [Nat.eqb].
  change (Nat.max (ex_n one_exo) 1 * length [[0%R]] * 1 =? 0)%nat with false. cbv iota.
  assert (Hd : forall y, h (y + serial_eps) <> h y) by (intros; unfold h, serial_eps; lra).
  remember (fun _ _ _ : nat => 0) as z. set (fuel := 4%nat). cbn [iti_loop]. subst fuel. cbv zeta.
  change (Nat.max (ex_n one_exo) 1) with 1%nat. change (length [[0]]) with 1%nat. rewrite sm_err.
  destruct (sm_step h lb ub nan ip (1 / 1000) 5 z ltac:(lra) ltac:(lia) (Hd _)) as (tot & nn & -> & Et). cbn [bind fst].
  assert (Ez : z 0%nat 0%nat 0%nat = 0) by (subst; reflexivity). rewrite Ez in *.
  assert (E0 : Rabs (h 0) = 2) by (unfold h; rewrite Rabs_left by lra; lra). rewrite E0.
  assert (Etot : tot 0%nat 0%nat 0%nat = - 2) by (rewrite Et; unfold h, serial_eps; field).
  set (y := fun i n k => z i n k - tot i n k * (/ 2) ^ 0).
  assert (Ey : y 0%nat 0%nat 0%nat = 2) by (unfold y; rewrite Ez, Etot; cbn; lra).
  assert (Eb : backsteps (fun _ s _ _ => s) (eq_of h) one_exo [[0]] 1 ip lb ub false nan 10 0 2 z tot = Some y).
  { cbn [backsteps]. fold y. rewrite sm_trial, Ey. unfold h. replace (2 - 2) with 0 by ring. rewrite Rabs_R0.
    destruct (Rlt_dec 0 2) as [_|]; [reflexivity|lra]. }
  rewrite Eb. destruct (Rlt_dec 2 (1 / 1000)) as [|_]; [lra|].
  destruct (sm_stop h lb ub nan ip (1 / 1000) 10 5 3 1 y ltac:(lra) ltac:(lia) ltac:(lia) (Hd _)) as (r & E & R1 & R2 & R3 & R4).
  { rewrite Ey. unfold h. replace (2 - 2) with 0 by ring. rewrite Rabs_R0. lra. }
  exists r. split; [exact E|]. split; [assumption|]. split; [assumption|]. split; [rewrite R3; assumption|].
  rewrite R4, Ey. unfold h. replace (2 - 2) with 0 by ring. apply Rabs_R0.
Qed.

Lemma iti_small_run : forall lb ub nan, exists r,
    improved_time_iteration (fun _ s _ _ => s) (eq_of (fun x => x - 2)) one_exo [[0]] 1 const_ip lb ub false nan
      (1 / 1000) 10 5 5 (fun _ _ _ => 0) = Ok r /\
    iti_converged r = true /\ iti_N r = 1%nat /\ iti_x r 0%nat 0%nat 0%nat = 2 /\ iti_f_x r = 0.
Proof. exact (iti_small_run_any const_ip). Qed.

(** Arbitrage 1 + x^2 = 0, from x = 0: the forward difference is 1e-8, the step 1e8, and the last cut
    step is kept although the error is larger; with [maxit = 1] the reported error is the initial one. *)
Lemma iti_error_stale : forall lb ub nan, exists r tot nn,
    let F := eq_of (fun x => 1 + x ^ 2) in
    improved_time_iteration (fun _ s _ _ => s) F one_exo [[0]] 1 const_ip lb ub false nan
      (1 / 1000) 10 5 1 (fun _ _ _ => 0) = Ok r /\
    iti_step (fun _ s _ _ => s) F one_exo [[0]] 1 const_ip lb ub false nan (1 / 1000) 5 (fun _ _ _ => 0) = Ok (tot, nn) /\
    iti_x r 0%nat 0%nat 0%nat = 0 - tot 0%nat 0%nat 0%nat * (/ 2) ^ 9 /\
    iti_f_x r = 1 /\
    1 < euler (fun _ s _ _ => s) F 1 (fun _ => 1) (fun _ => [0]) (const_ip (iti_x r) 0) [0] [0] [iti_x r 0%nat 0%nat 0%nat] 0.
Proof.
  intros lb ub nan. set (h := fun x => 1 + x ^ 2). cbv zeta.
  unfold improved_time_iteration. change (Nat.eqb (ex_n one_exo) 0) with false. cbn [Nat.eqb].
  change (Nat.max (ex_n one_exo) 1 * length [[0%R]] * 1 =? 0)%nat with false. cbv iota.
  remember (fun _ _ _ : nat => 0) as z. assert (Ez : z 0%nat 0%nat 0%nat = 0) by (subst; reflexivity).
  destruct (sm_step h lb ub nan const_ip (1 / 1000) 5 z ltac:(lra) ltac:(lia)) as (tot & nn & Es & Et).
  { rewrite Ez. unfold h, serial_eps. lra. }
  rewrite Ez in Et. assert (Etot : tot 0%nat 0%nat 0%nat = 100000000) by (rewrite Et; unfold h, serial_eps; field).
  cbn [iti_loop]. cbv zeta. change (Nat.max (ex_n one_exo) 1) with 1%nat. change (length [[0]]) with 1%nat. rewrite sm_err.
  rewrite Ez. assert (E0 : Rabs (h 0) = 1) by (unfold h; rewrite Rabs_pos_eq; lra). rewrite E0.
  set (y := fun i n k => z i n k - tot i n k * (/ 2) ^ 9).
  assert (Hstep : forall b, 0 < z 0%nat 0%nat 0%nat - tot 0%nat 0%nat 0%nat * (/ 2) ^ b \/ z 0%nat 0%nat 0%nat - tot 0%nat 0%nat 0%nat * (/ 2) ^ b < 0).
  { intros b. right. rewrite Ez, Etot. assert (0 < (/ 2) ^ b) by (apply pow_lt; lra). lra. }
  assert (Hsq : forall u, u <> 0 -> 1 < h u) by (intros u Hu; unfold h; assert (0 < u ^ 2) by (destruct (Rtotal_order u 0) as [?|[?|?]]; [nra|contradiction|nra]); lra).
  assert (Hb : forall b, ~ Rabs (h (z 0%nat 0%nat 0%nat - tot 0%nat 0%nat 0%nat * (/ 2) ^ b)) < 1).
  { intros b. specialize (Hsq (z 0%nat 0%nat 0%nat - tot 0%nat 0%nat 0%nat * (/ 2) ^ b)). 
    assert (1 < h (z 0%nat 0%nat 0%nat - tot 0%nat 0%nat 0%nat * (/ 2) ^ b)) by (apply Hsq; destruct (Hstep b); lra).
    rewrite Rabs_pos_eq by lra. lra. }
  assert (Eb : backsteps (fun _ s _ _ => s) (eq_of h) one_exo [[0]] 1 const_ip lb ub false nan 10 0 1 z tot = Some y).
  { cbn [backsteps].
    do 10 (rewrite sm_trial; match goal with |- context [Rlt_dec ?a 1] => destruct (Rlt_dec a 1) as [Q|_]; [exfalso; exact (Hb _ Q)|] end).
    reflexivity. }
  eexists. exists tot, nn. split; [|split; [exact Es|]].
  - rewrite Es. cbn [bind fst]. rewrite Eb. destruct (Rlt_dec 1 (1 / 1000)) as [|_]; [lra|]. reflexivity.
  - cbn [iti_x iti_f_x]. split; [unfold y; rewrite Ez; reflexivity|]. split; [reflexivity|].
    unfold euler, eq_of. cbn [rsum hd]. assert (1 < h (y 0%nat 0%nat 0%nat)); [|unfold h in *; lra].
    apply Hsq. unfold y. destruct (Hstep 9%nat); lra.
Qed.
