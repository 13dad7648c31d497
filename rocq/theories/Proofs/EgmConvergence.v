(** Convergence of the endogenous grid method. *)
From Coq Require Import String Reals List Arith Lia Lra Psatz Bool.
From Verif.Base Require Import Prelude Arrays Sums Norms Ext Banach.
From Verif.Model Require Import Discretization Grids Distributions Processes TimeIteration Egm.
From Verif.Spec Require Import Egm.
From Verif.Proofs Require Import TimeIterationProofs ValueIterationProofs EgmProofs.
Import ListNotations.
Open Scope R_scope.

Lemma projection_lipschitz : forall l u x x' y y',
    projection l u x y -> projection l u x' y' -> Rabs (y - y') <= Rabs (x - x').
Proof.
  intros l u x x' y y' (A1 & A2 & A3 & A4 & A5) (B1 & B2 & B3 & B4 & B5).
  assert (Dl : forall z, ext_le_l l z \/ ~ ext_le_l l z).
  { intros z. destruct l as [|l|]; cbn; [tauto| |tauto]. destruct (Rle_dec l z); tauto. }
  assert (Du : forall z, ext_le_r z u \/ ~ ext_le_r z u).
  { intros z. destruct u as [|u|]; cbn; [tauto| |tauto]. destruct (Rle_dec z u); tauto. }
  destruct (Dl x) as [L|L], (Du x) as [U|U], (Dl x') as [L'|L'], (Du x') as [U'|U'];
    repeat match goal with
           | H : ext_le_l _ _ -> ext_le_r _ _ -> _ = _, K : ext_le_l _ _, K' : ext_le_r _ _ |- _ => rewrite (H K K') in *; clear H
           | H : ~ ext_le_l _ _ -> _ , K : ~ ext_le_l _ _ |- _ => specialize (H K)
           | H : ~ ext_le_r _ _ -> _ , K : ~ ext_le_r _ _ |- _ => specialize (H K)
           end;
    destruct l as [|l|]; destruct u as [|u|]; cbn in *; try tauto; try congruence;
    repeat match goal with H : Fin _ = Fin _ |- _ => injection H as -> end;
    try lra; unfold Rabs; repeat destruct Rcase_abs; try lra.
Qed.

Section Egm.
  Variable exo : dexo.
  Variable is_iid : bool.
  Variable s : list R.
  Variable a : nat -> R.
  Variable N_a n_h : nat.
  Variable h : list R -> R -> R -> nat -> R.
  Variable gt : list R -> R -> list R -> R.
  Variable tau : list R -> R -> list R -> R.
  Variable atau : list R -> R -> R -> R.
  Variable lb ub : list R -> R -> ext.
  Variable dr0 : nat -> R -> R.
  Variable el : (nat -> R) -> (nat -> R) -> R -> R.
  Variable nan : R.
  Notation fut := (drfut exo is_iid lb ub el nan).
  Notation rul := (rule exo is_iid lb ub dr0 el nan).
  Notation xa_ := (egm_xa exo a n_h h gt tau).
  Notation sa_ := (egm_sa exo a n_h h gt tau atau).
  Notation loop := (egm_loop exo is_iid s a N_a n_h h gt tau atau lb ub dr0 el nan).
  Notation run := (egm exo is_iid s a N_a n_h h gt tau atau lb ub dr0 el nan).
  Notation idx i := (if is_iid then 0%nat else i).
  Notation step := (egm_step exo is_iid a N_a n_h h gt tau atau lb ub el).
  Notation ap := (apart (ex_n exo) N_a).
  Notation dist := (egm_dist exo N_a).
  Notation it_ := (iter_sx exo is_iid a n_h h gt tau atau lb ub dr0 el nan).

  Hypothesis Hb : bounds_ok exo lb ub.
  Hypothesis Hs : (0 < ex_n exo * N_a)%nat.
  Variable lam : R.
  Hypothesis HC : forall X sa xa sa' xa' Y sb xb sb' xb' e,
      step X sa xa sa' xa' -> step Y sb xb sb' xb' -> ap sa xa sb xb e -> ap sa' xa' sb' xb' (lam * e).

  Lemma apart_dist : forall sa xa sb xb e, ap sa xa sb xb e <-> dist xa xb + dist sa sb <= e.
  Proof.
    intros sa xa sb xb e. destruct (egm_dist_is exo N_a xa xb Hs) as (X1 & i & q & Hi & Hq & EX).
    destruct (egm_dist_is exo N_a sa sb Hs) as (S1 & i' & q' & Hi' & Hq' & ES). split.
    - intros (es & ex & He & A & B). specialize (A i' q' Hi' Hq'). specialize (B i q Hi Hq). lra.
    - intros He. exists (dist sa sb), (dist xa xb). split; [lra|]. split; assumption.
  Qed.

  Lemma step_fut : forall sa xa, step (fut sa xa) sa xa (sa_ (fut sa xa)) (xa_ (fut sa xa)).
  Proof. intros sa xa. split; [apply drfut_projection; exact Hb|intros; apply response]. Qed.

  Variable D : R.
  Hypothesis HD : forall X s1 x1 s2 x2,
      (forall i p, (i < ex_n exo)%nat -> (p < N_a)%nat -> egm_response n_h (dp_n (ex_dp exo) i) (dp_weight (ex_dp exo) i) (dp_node (ex_dp exo) i) dr0
                     h gt tau atau (ex_node exo i) (a p) (x1 i p) (s1 i p)) ->
      step X s1 x1 s2 x2 -> ap s2 x2 s1 x1 D.

  Lemma it_step : forall t, step (rul (S t) (fst (it_ (S t))) (snd (it_ (S t)))) (fst (it_ (S t))) (snd (it_ (S t)))
                               (fst (it_ (S (S t)))) (snd (it_ (S (S t)))).
  Proof. intros t. apply step_fut. Qed.

  Lemma it_close : forall t, ap (fst (it_ (S (S t)))) (snd (it_ (S (S t)))) (fst (it_ (S t))) (snd (it_ (S t))) (lam ^ t * D).
  Proof.
    intros t. induction t as [|t IH].
    - cbn [pow]. rewrite Rmult_1_l. eapply HD; [|apply it_step]. intros i p _ _. apply response.
    - cbn [pow]. rewrite Rmult_assoc. eapply HC; [apply it_step|apply it_step|exact IH].
  Qed.

  Lemma loop_stops : forall tol m, (1 <= m)%nat -> lam ^ m * D < tol ->
    forall fuel it, (m + 1 < it + fuel)%nat -> (it <= m + 1)%nat ->
    exists r, loop tol fuel it (fst (it_ it)) (snd (it_ it)) = Ok r /\ egm_converged r = true /\ (egm_it r <= m + 1)%nat.
  Proof.
    intros tol m Hm Ht fuel. induction fuel as [|fuel IH]; intros it Hf Hi; [lia|]. cbn [egm_loop].
    match goal with |- context [Rlt_dec ?E tol] => set (e := E) end.
    destruct (Rlt_dec e tol) as [Hlt|Hge]; [eexists; split; [reflexivity|]; cbn; split; [reflexivity|lia]|].
    assert (Hne : it <> (m + 1)%nat).
    { intros ->. apply Hge. unfold e, egm_error. destruct (Nat.ltb_spec 1 (m + 1)); [|lia].
      pose proof (it_close m) as Q. apply apart_dist in Q. eapply Rle_lt_trans; [|exact Ht].
      replace (m + 1)%nat with (S m) by lia. exact Q. }
    destruct fuel as [|fuel']; [lia|]. apply (IH (S it)); lia.
  Qed.

  Lemma egm_stops : forall tol m maxit, (1 <= m)%nat -> lam ^ m * D < tol -> (m + 1 < maxit)%nat ->
    exists r, run true tol maxit = Ok r /\ egm_converged r = true /\ (egm_it r <= m + 1)%nat.
  Proof.
    intros tol m maxit Hm Ht Hx. unfold egm. destruct (Nat.eqb_spec (ex_n exo * N_a) 0) as [E|_]; [lia|]. cbn [andb].
    apply (loop_stops tol m Hm Ht maxit 0); lia.
  Qed.
End Egm.

Section Error.
  Variable exo : dexo.
  Variable is_iid : bool.
  Variable s : list R.
  Variable a : nat -> R.
  Variable N_a n_h : nat.
  Variable h : list R -> R -> R -> nat -> R.
  Variable gt : list R -> R -> list R -> R.
  Variable tau : list R -> R -> list R -> R.
  Variable atau : list R -> R -> R -> R.
  Variable lb ub : list R -> R -> ext.
  Variable dr0 : nat -> R -> R.
  Variable el : (nat -> R) -> (nat -> R) -> R -> R.
  Variable nan : R.
  Notation run := (egm exo is_iid s a N_a n_h h gt tau atau lb ub dr0 el nan).
  Notation step := (egm_step exo is_iid a N_a n_h h gt tau atau lb ub el).
  Notation ap := (apart (ex_n exo) N_a).
  Notation dist := (egm_dist exo N_a).

  Lemma dist_tri : (0 < ex_n exo * N_a)%nat -> forall x y z, dist x z <= dist x y + dist y z.
  Proof.
    intros Hs x y z. destruct (egm_dist_is exo N_a x z Hs) as (_ & i & q & Hi & Hq & <-).
    destruct (egm_dist_is exo N_a x y Hs) as (A & _). destruct (egm_dist_is exo N_a y z Hs) as (B & _).
    specialize (A i q Hi Hq). specialize (B i q Hi Hq).
    replace (x i q - z i q) with ((x i q - y i q) + (y i q - z i q)) by ring. eapply Rle_trans; [apply Rabs_triang|lra].
  Qed.
  Lemma dist_sym : (0 < ex_n exo * N_a)%nat -> forall x y, dist x y = dist y x.
  Proof.
    intros Hs. assert (H : forall x y, dist x y <= dist y x).
    { intros x y. destruct (egm_dist_is exo N_a x y Hs) as (_ & i & q & Hi & Hq & <-).
      destruct (egm_dist_is exo N_a y x Hs) as (A & _). rewrite Rabs_minus_sym. apply A; assumption. }
    intros x y. apply Rle_antisym; apply H.
  Qed.

  Lemma egm_near_fixed : bounds_ok exo lb ub -> forall lam L, 0 <= lam < 1 ->
    (forall X sa xa sa' xa' Y sb xb sb' xb' e,
      step X sa xa sa' xa' -> step Y sb xb sb' xb' -> ap sa xa sb xb e -> ap sa' xa' sb' xb' (lam * e)) ->
    (forall sa xa sb xb e i ss, (i < ex_n exo)%nat -> ap sa xa sb xb e -> Rabs (el (sa i) (xa i) ss - el (sb i) (xb i) ss) <= L * e) ->
    forall tol maxit r, run true tol maxit = Ok r -> tol <= 1 -> egm_converged r = true ->
    forall X sa xa, step X sa xa sa xa ->
    forall i n, (i < ex_n exo)%nat -> Rabs (egm_values r i n - X i (nth n s 0)) <= L * (egm_eta r / (1 - lam)).
  Proof.
    intros Hb lam L Hl HC HL tol maxit r H Ht Hc X sa xa Hfix i n Hi.
    destruct (egm_converges exo is_iid s a N_a n_h h gt tau atau lb ub dr0 el nan Hb tol maxit r H Ht Hc) as (Hs & _).
    destruct (egm_run exo is_iid s a N_a n_h h gt tau atau lb ub dr0 el nan tol maxit r H) as (Hit & Hcc & _ & sb & xb & He & Hv).
    pose proof (proj1 Hcc Hc) as Q. rewrite He in Q |- *. unfold egm_error in *.
    destruct (Nat.ltb_spec 1 (egm_it r)) as [H1|H1]; [|lra].
    destruct (egm_it r) as [|k]; [lia|]. cbn [rule] in *.
    set (Y := drfut exo is_iid lb ub el nan sb xb) in *.
    assert (HY : step Y sb xb (egm_sa exo a n_h h gt tau atau Y) (egm_xa exo a n_h h gt tau Y))
      by (apply step_fut; exact Hb).
    set (sb' := egm_sa exo a n_h h gt tau atau Y) in *. set (xb' := egm_xa exo a n_h h gt tau Y) in *.
    set (d := dist xb xa + dist sb sa).
    assert (Hd : ap sb xb sa xa d) by (apply (proj2 (apart_dist exo N_a Hs sb xb sa xa d)); unfold d; lra).
    pose proof (HC _ _ _ _ _ _ _ _ _ _ _ HY Hfix Hd) as Hd'. apply (apart_dist exo N_a Hs) in Hd'.
    set (eta := dist xb' xb + dist sb' sb) in *.
    assert (Hle : d <= eta + lam * d).
    { unfold d at 1. pose proof (dist_tri Hs xb xb' xa) as T1. pose proof (dist_tri Hs sb sb' sa) as T2.
      rewrite (dist_sym Hs xb xb') in T1. rewrite (dist_sym Hs sb sb') in T2. unfold eta. lra. }
    assert (Hd2 : d <= eta / (1 - lam)).
    { apply (Rmult_le_reg_r (1 - lam)); [lra|]. unfold Rdiv. rewrite Rmult_assoc, Rinv_l by lra. lra. }
    rewrite Hv, Hc. destruct Hfix as (HX & _). destruct HY as (HYp & _).
    eapply Rle_trans; [apply (projection_lipschitz _ _ _ _ _ _ (HYp i (nth n s 0)) (HX i (nth n s 0)))|].
    cbv zeta. apply HL.
    - destruct is_iid; [nia|exact Hi].
    - apply (proj2 (apart_dist exo N_a Hs sb xb sa xa _)). unfold d in Hd2. exact Hd2.
  Qed.
End Error.

(** A step that contracts leaves some policy unchanged. *)
Theorem egm_fixed : forall exo is_iid a N_a n_h h gt tau atau lb ub el,
  let step := egm_step exo is_iid a N_a n_h h gt tau atau lb ub el in
  let ap := apart (ex_n exo) N_a in
  bounds_ok exo lb ub -> forall lam, 0 <= lam < 1 ->
  (forall X sa xa sa' xa' Y sb xb sb' xb' e,
     step X sa xa sa' xa' -> step Y sb xb sb' xb' -> ap sa xa sb xb e -> ap sa' xa' sb' xb' (lam * e)) ->
  exists X sa xa, step X sa xa sa xa.
Proof.
  intros exo is_iid a N_a n_h h gt tau atau lb ub el step ap Hb lam Hl HC.
  set (S_ := fun (z : bool * nat * nat -> R) i p => z (true, i, p)).
  set (X_ := fun (z : bool * nat * nat -> R) i p => z (false, i, p)).
  set (F := fun z => drfut exo is_iid lb ub el 0 (S_ z) (X_ z)).
  set (T := fun z (q : bool * nat * nat) => let '(b, i, p) := q in
              if b then egm_sa exo a n_h h gt tau atau (F z) i p else egm_xa exo a n_h h gt tau (F z) i p).
  set (inI := fun q : bool * nat * nat => let '(b, i, p) := q in andb (Nat.ltb i (ex_n exo)) (Nat.ltb p N_a)).
  assert (HI : forall b i p, inI (b, i, p) = true <-> (i < ex_n exo /\ p < N_a)%nat).
  { intros b i p. unfold inI. rewrite andb_true_iff, !Nat.ltb_lt. tauto. }
  set (C := fun z z' e => 0 <= e /\ ap (S_ z) (X_ z) (S_ z') (X_ z') e).
  assert (HS : forall z, step (F z) (S_ z) (X_ z) (S_ (T z)) (X_ (T z))).
  { intros z. split; [apply drfut_projection; exact Hb|intros i p _ _; apply response]. }
  set (D := egm_dist exo N_a (S_ (T (fun _ => 0))) (fun _ _ => 0) + egm_dist exo N_a (X_ (T (fun _ => 0))) (fun _ _ => 0)).
  assert (PD : 0 <= D) by (apply Rplus_le_le_0_compat; apply supnorm_nonneg).
  destruct (banach (bool * nat * nat) inI C 2) with (T := T) (lam := lam) (x0 := fun _ : bool * nat * nat => 0) (D := D) as (z & Hz).
  - intros x y e (He & es & ex & Hle & A1 & A2) ((b, i), p) Hq. apply HI in Hq. destruct Hq as (Hi & Hp).
    specialize (A1 i p Hi Hp). specialize (A2 i p Hi Hp).
    pose proof (Rabs_pos (S_ x i p - S_ y i p)). pose proof (Rabs_pos (X_ x i p - X_ y i p)). unfold S_, X_ in *. destruct b; lra.
  - intros x y e He H. split; [lra|]. exists e, e. split; [lra|]. split; intros i p Hi Hp; apply H; apply HI; tauto.
  - exact Hl.
  - intros x y e (He & H). split; [apply Rmult_le_pos; lra|]. apply (HC (F x) _ _ _ _ (F y) _ _ _ _ e (HS x) (HS y) H).
  - exact PD.
  - split; [exact PD|].
    exists (egm_dist exo N_a (S_ (T (fun _ => 0))) (fun _ _ => 0)), (egm_dist exo N_a (X_ (T (fun _ => 0))) (fun _ _ => 0)).
    split; [apply Rle_refl|]. split; intros i q Hi Hq; refine (proj1 (egm_dist_is exo N_a _ (fun _ _ => 0) _) i q Hi Hq); nia.
  - exists (F z), (S_ z), (X_ z). destruct (HS z) as (A & B). split; [exact A|]. intros i p Hi Hp.
    specialize (B i p Hi Hp). pose proof (Hz (true, i, p) (proj2 (HI true i p) (conj Hi Hp))) as E1.
    pose proof (Hz (false, i, p) (proj2 (HI false i p) (conj Hi Hp))) as E2. unfold S_, X_ in B |- *. rewrite E1, E2 in B. exact B.
Qed.

(** A contracting problem: x = a/2 + X'/4, s = a + x, with the rule constant and equal to its first control. *)
Definition quarter_run nan tol maxit : res egm_result :=
  egm one_exo false [0] (fun p => INR p) 2 1 (fun _ _ X _ => X) (fun _ a _ => a) (fun _ a z => a / 2 + hd 0 z / 4) (fun _ a x => a + x)
    (fun _ _ => MInf) (fun _ _ => PInf) (fun _ _ => 1) (fun _ x _ => x 0%nat) nan true tol maxit.
Notation quarter_step := (egm_step one_exo false (fun p => INR p) 2 1 (fun _ _ X _ => X) (fun _ a _ => a)
    (fun _ a z => a / 2 + hd 0 z / 4) (fun _ a x => a + x) (fun _ _ => MInf) (fun _ _ => PInf) (fun _ x _ => x 0%nat)).

Lemma quarter_eq : forall X sa xa sa' xa', quarter_step X sa xa sa' xa' ->
    forall p, (p < 2)%nat -> xa' 0%nat p = INR p / 2 + xa 0%nat 0%nat / 4 /\ sa' 0%nat p = INR p + INR p / 2 + xa 0%nat 0%nat / 4.
Proof.
  intros X sa xa sa' xa' (HP & HR) p Hp. destruct (HR 0%nat p ltac:(cbn; lia) Hp) as (z & Hz & E & -> & ->).
  assert (EX : X 0%nat (INR p) = xa 0%nat 0%nat).
  { destruct (HP 0%nat (INR p)) as (_ & _ & Q & _). apply Q; exact I. }
  specialize (E 0%nat ltac:(lia)). cbn in E. destruct z as [|z0 [|]]; try discriminate. cbn [hd nth] in *. rewrite E, EX. split; field.
Qed.
Lemma quarter_contracts : forall X sa xa sa' xa' Y sb xb sb' xb' e,
    quarter_step X sa xa sa' xa' -> quarter_step Y sb xb sb' xb' ->
    apart 1 2 sa xa sb xb e -> apart 1 2 sa' xa' sb' xb' (1 / 2 * e).
Proof.
  intros X sa xa sa' xa' Y sb xb sb' xb' e HX HY (es & ex & He & Hs & Hx).
  pose proof (Hx 0%nat 0%nat ltac:(lia) ltac:(lia)) as Q. pose proof (Hs 0%nat 0%nat ltac:(lia) ltac:(lia)) as P.
  pose proof (Rabs_pos (sa 0%nat 0%nat - sb 0%nat 0%nat)).
  assert (A : Rabs ((xa 0%nat 0%nat - xb 0%nat 0%nat) / 4) <= ex / 4).
  { unfold Rdiv. rewrite Rabs_mult, (Rabs_right (/ 4)) by lra. lra. }
  exists (ex / 4), (ex / 4). split; [lra|].
  split; intros i q Hi Hq; assert (i = 0%nat) as -> by lia;
    destruct (quarter_eq _ _ _ _ _ HX q Hq) as (E1 & E2); destruct (quarter_eq _ _ _ _ _ HY q Hq) as (E3 & E4).
  - rewrite E2, E4. replace (_ - _) with ((xa 0%nat 0%nat - xb 0%nat 0%nat) / 4) by field. exact A.
  - rewrite E1, E3. replace (_ - _) with ((xa 0%nat 0%nat - xb 0%nat 0%nat) / 4) by field. exact A.
Qed.
Lemma quarter_first : forall X s1 x1 s2 x2,
    (forall i p, (i < 1)%nat -> (p < 2)%nat -> egm_response 1 (dp_n (ex_dp one_exo) i) (dp_weight (ex_dp one_exo) i) (dp_node (ex_dp one_exo) i) (fun _ _ => 1)
       (fun _ _ X _ => X) (fun _ a _ => a) (fun _ a z => a / 2 + hd 0 z / 4) (fun _ a x => a + x) (ex_node one_exo i) (INR p) (x1 i p) (s1 i p)) ->
    quarter_step X s1 x1 s2 x2 -> apart 1 2 s2 x2 s1 x1 (3 / 8).
Proof.
  intros X s1 x1 s2 x2 H1 H2.
  assert (E : forall p, (p < 2)%nat -> x1 0%nat p = INR p / 2 + 1 / 4 /\ s1 0%nat p = INR p + INR p / 2 + 1 / 4).
  { intros p Hp. destruct (H1 0%nat p ltac:(lia) Hp) as (z & Hz & E & -> & ->). specialize (E 0%nat ltac:(lia)). cbn in E.
    destruct z as [|z0 [|]]; try discriminate. cbn [hd nth] in *. rewrite E. split; field. }
  destruct (E 0%nat ltac:(lia)) as (E0 & _). cbn [INR] in E0.
  exists (3 / 16), (3 / 16). split; [lra|].
  split; intros i q Hi Hq; assert (i = 0%nat) as -> by lia;
    destruct (quarter_eq _ _ _ _ _ H2 q Hq) as (F1 & F2); destruct (E q Hq) as (G1 & G2).
  - rewrite F2, G2, E0. replace (_ - _) with (- (3 / 16)) by field. rewrite Rabs_Ropp, Rabs_right; lra.
  - rewrite F1, G1, E0. replace (_ - _) with (- (3 / 16)) by field. rewrite Rabs_Ropp, Rabs_right; lra.
Qed.
Lemma quarter_fixed : quarter_step (fun _ _ => 0) (fun _ p => INR p + INR p / 2) (fun _ p => INR p / 2)
                                   (fun _ p => INR p + INR p / 2) (fun _ p => INR p / 2).
Proof.
  split.
  - intros i ss. cbn. repeat split; cbn; try tauto. intros _ _. lra.
  - intros i p _ _. exists [0]. split; [reflexivity|]. split; [|cbn; lra].
    intros k Hk. assert (k = 0%nat) as -> by lia. cbn. lra.
Qed.
