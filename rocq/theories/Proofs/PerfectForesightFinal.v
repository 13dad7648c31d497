(** Proofs about [_shocks_to_epsilons], [deterministic_solve], [residuals] and [find_steady_state]. *)
From Coq Require Import String Reals List Arith ZArith Lia Lra Bool FunctionalExtensionality.
From Verif.Base Require Import Prelude Ext Arrays Norms Sums.
From Verif.Model Require Import Complementarity Newton SteadyState PerfectForesight.
From Verif.Spec Require Import Complementarity PerfectForesight PerfectForesightRun.
From Verif.Proofs Require Import ComplementarityFinal NewtonProofs TimeIterationProofs PerfectForesightProofs.
Import ListNotations.
Open Scope R_scope.

(** ** C38: exogenous paths *)

Lemma last_nth : forall (l : list R), l <> [] -> last l 0 = nth (length l - 1) l 0.
Proof.
  induction l as [|x l IH]; intros H; [congruence|]. destruct l as [|y l]; [reflexivity|].
  change (last (x :: y :: l) 0) with (last (y :: l) 0). rewrite IH by discriminate.
  simpl. now rewrite Nat.sub_0_r.
Qed.

Lemma dict_column_spec : forall T l col,
    dict_column T l = Ok col <->
    (l <> [] /\ (length l <= T + 1)%nat /\
     col = (fun t => if Nat.ltb t (length l) then nth t l 0 else last l 0)).
Proof.
  intros T l col. unfold dict_column. destruct (Nat.ltb_spec (T + 1) (length l)).
  - split; [discriminate|]. intros (_ & H1 & _). lia.
  - destruct l as [|x l].
    + split; [discriminate|]. intros (H1 & _). congruence.
    + split.
      * intros E. injection E as <-. repeat split; [discriminate|assumption].
      * intros (_ & _ & ->). reflexivity.
Qed.

Lemma dict_column_follows : forall T l col, dict_column T l = Ok col -> follows_then_stays l col.
Proof.
  intros T l col H. apply dict_column_spec in H. destruct H as (NE & _ & ->). intros t.
  destruct (Nat.ltb_spec t (length l)).
  - rewrite Nat.min_l by lia. reflexivity.
  - rewrite Nat.min_r by lia. now apply last_nth.
Qed.

Lemma shocks_dict : forall names cal d T eps,
    shocks_to_epsilons names cal (SDict d) T = Ok eps ->
    forall i, (i < length names)%nat -> dict_meaning names cal d i (fun t => eps t i).
Proof.
  intros names cal d T eps H. unfold shocks_to_epsilons in H.
  refine (for_range_res_inv (fun c eps => forall i, (i < c)%nat -> dict_meaning names cal d i (fun t => eps t i))
            _ _ _ _ _ _ H).
  - intros i Hi. lia.
  - intros c e e' Hc IH Hb i Hi. cbv beta in Hb.
    destruct (dict_get (nth c names EmptyString) d) as [l|] eqn:G.
    + destruct (dict_column T l) as [col|] eqn:C; cbn in Hb; [|discriminate]. injection Hb as <-.
      destruct (Nat.eq_dec i c) as [->|NE].
      * unfold dict_meaning. rewrite G. intros t. rewrite Nat.eqb_refl. apply (dict_column_follows _ _ _ C).
      * assert (E : (fun t : nat => if Nat.eqb i c then col t else e t i) = (fun t => e t i)).
        { apply functional_extensionality. intros t. now apply Nat.eqb_neq in NE; rewrite NE. }
        rewrite E. apply IH. lia.
    + injection Hb as <-.
      destruct (Nat.eq_dec i c) as [->|NE].
      * unfold dict_meaning. rewrite G. intros t. now rewrite Nat.eqb_refl.
      * assert (E : (fun t : nat => if Nat.eqb i c then cal c else e t i) = (fun t => e t i)).
        { apply functional_extensionality. intros t. now apply Nat.eqb_neq in NE; rewrite NE. }
        rewrite E. apply IH. lia.
Qed.

(** The dict branch succeeds exactly when every series it uses is non-empty and fits the horizon. *)
Lemma shocks_dict_ok : forall names cal d T,
    (exists eps, shocks_to_epsilons names cal (SDict d) T = Ok eps) <->
    (forall i l, (i < length names)%nat -> dict_get (nth i names EmptyString) d = Some l ->
                 l <> [] /\ (length l <= T + 1)%nat).
Proof.
  intros names cal d T. unfold shocks_to_epsilons. set (c := length names).
  assert (Hc : (c <= length names)%nat) by (unfold c; lia).
  generalize (fun _ _ : nat => 0) as e0. generalize c. clear c Hc.
  induction c as [|c IH]; intros e0.
  - simpl. split; [intros; lia|]. intros _. now exists e0.
  - cbn [for_range_res]. split.
    + intros [eps H]. destruct (for_range_res c _ e0) as [e1|] eqn:E; cbn [bind] in H; [|discriminate].
      intros i l Hi G. destruct (Nat.eq_dec i c) as [->|NE].
      * rewrite G in H. destruct (dict_column T l) as [col|] eqn:C; cbn in H; [|discriminate].
        apply dict_column_spec in C. tauto.
      * destruct (IH e0) as [IH1 _]. apply (IH1 (ex_intro _ e1 E) i l); [lia|assumption].
    + intros H. destruct (IH e0) as [_ IH2]. destruct IH2 as [e1 E].
      { intros i l Hi. apply H. lia. }
      rewrite E. cbn [bind]. destruct (dict_get (nth c names EmptyString) d) as [l|] eqn:G.
      * destruct (H c l ltac:(lia) G) as [NE LE].
        assert (C : exists col, dict_column T l = Ok col).
        { eexists. apply dict_column_spec. repeat split; assumption. }
        destruct C as [col C]. rewrite C. cbn. eauto.
      * eauto.
Qed.

(** The array branch, for [k] rows of [n_e] values: row [t] of the path is row [t+1] of the array. *)
Lemma shocks_array : forall names cal a T eps k,
    (0 < length names)%nat -> length a = (k * length names)%nat ->
    shocks_to_epsilons names cal (SArray a) T = Ok eps ->
    (1 <= k)%nat /\ (k <= T + 2)%nat /\
    forall t i, (i < length names)%nat ->
      eps t i = nth (Nat.min (S t) (k - 1) * length names + i) a 0.
Proof.
  intros names cal a T eps k Hn Hl H. cbn in H. unfold array_epsilons in H.
  destruct (Nat.eqb_spec (length names) 0) as [|_]; [lia|].
  rewrite Hl in H. rewrite Nat.mod_mul, Nat.div_mul in H by lia. cbn [negb Nat.eqb] in H.
  destruct (Nat.eqb_spec k 0) as [|Hk]; [discriminate|].
  destruct (Nat.ltb_spec (T + 1) (k - 1)) as [|HT]; [discriminate|]. injection H as <-.
  split; [lia|]. split; [lia|]. intros t i Hi. destruct (Nat.ltb_spec t (k - 1)).
  - rewrite Nat.min_l by lia. reflexivity.
  - rewrite Nat.min_r by lia. reflexivity.
Qed.

Lemma shocks_none : forall names cal T,
    (0 < length names)%nat ->
    exists eps, shocks_to_epsilons names cal SNone T = Ok eps /\
                forall t i, (i < length names)%nat -> eps t i = cal i.
Proof.
  intros names cal T Hn. cbn. unfold array_epsilons. rewrite map_length, seq_length.
  destruct (Nat.eqb_spec (length names) 0) as [|_]; [lia|].
  rewrite Nat.mod_same, Nat.div_same by lia. cbn [negb Nat.eqb]. cbn.
  eexists. split; [reflexivity|]. intros t i Hi. cbn.
  erewrite nth_indep by (rewrite map_length, seq_length; exact Hi).
  rewrite (map_nth cal (seq 0 (length names)) 0%nat i). now rewrite seq_nth by exact Hi.
Qed.

(** What an array means: the dict holding its columns without their first entry. *)
Lemma shocks_array_is_shifted_dict : forall names cal a T eps k i,
    (2 <= k)%nat -> (i < length names)%nat -> length a = (k * length names)%nat ->
    shocks_to_epsilons names cal (SArray a) T = Ok eps ->
    follows_then_stays (column_from (length names) a k 1 i) (fun t => eps t i).
Proof.
  intros names cal a T eps k i Hk Hi Hl H t.
  destruct (shocks_array names cal a T eps k ltac:(lia) Hl H) as (_ & _ & E). rewrite E by exact Hi.
  unfold column_from. rewrite map_length, seq_length.
  rewrite (nth_map_lt _ _ _ _ 0%nat) by (rewrite seq_length; lia).
  rewrite seq_nth by lia. f_equal. f_equal. f_equal. lia.
Qed.

Lemma shocks_refuted : exists names cal (path : list R) T eps1 eps2,
    shocks_to_epsilons names cal (SArray path) T = Ok eps1 /\
    shocks_to_epsilons names cal (SDict [(nth 0 names EmptyString, path)]) T = Ok eps2 /\
    eps1 0%nat 0%nat <> eps2 0%nat 0%nat.
Proof.
  exists ["e"%string], (fun _ => 0), [0; 1], 3%nat. do 2 eexists. split; [reflexivity|]. split; [reflexivity|].
  change (1 <> 0). lra.
Qed.

(** ** Flat vectors and paths *)

Section Solve.
  Variable md : pf_model.
  Variable sv : pf_solvers.
  Notation n_s := (pm_ns md).
  Notation n_x := (pm_nx md).
  Notation n := (n_s + n_x)%nat.

  Lemma reshape_ravel : forall A (p : nat -> nat -> A) t k, (k < n)%nat -> reshape n_s n_x (ravel n_s n_x p) t k = p t k.
  Proof.
    intros A p t k Hk. unfold reshape, ravel.
    rewrite Nat.div_add_l by lia. rewrite Nat.div_small by lia.
    rewrite Nat.add_0_r. rewrite Nat.add_comm, Nat.mod_add by lia. now rewrite Nat.mod_small by lia.
  Qed.

  Lemma ravel_bound : forall N q, (q < N * n)%nat -> (q / n < N)%nat /\ (q mod n < n)%nat.
  Proof.
    intros N q Hq. assert ((0 < n)%nat) by (destruct n; lia).
    split; [apply Nat.div_lt_upper_bound; lia|apply Nat.mod_upper_bound; lia].
  Qed.

  Lemma flat_lt : forall N t k, (t < N)%nat -> (k < n)%nat -> (t * n + k < N * n)%nat.
  Proof. intros N t k Ht Hk. assert ((S t) * n <= N * n)%nat by (apply Nat.mul_le_mono_r; lia). lia. Qed.

  Notation G := (pm_g md).
  Notation F := (pm_f md).
  Notation dres := (det_res n_s n_x G F).
  Notation djac := (det_jac n_s n_x (pm_g_s md) (pm_g_x md) (pm_f_s md) (pm_f_x md) (pm_f_S md) (pm_f_X md)).
  Notation FF := (ff n_s n_x G F (pm_g_s md) (pm_g_x md) (pm_f_s md) (pm_f_x md) (pm_f_S md) (pm_f_X md)).

  (** The residual only looks at the columns of states and controls. *)
  Lemma dres_ext : forall N p p' start m t k,
      (2 <= N)%nat -> (t < N)%nat -> (k < n)%nat ->
      (forall t k, (k < n)%nat -> p t k = p' t k) -> dres N p start m t k = dres N p' start m t k.
  Proof.
    intros N p p' start m t k HN Ht Hk E.
    assert (Es : forall t, st n_s p t = st n_s p' t).
    { intros u. apply functional_extensionality. intros l. unfold st, slice.
      destruct (Nat.ltb_spec l n_s); [apply E; lia|reflexivity]. }
    assert (Ec : forall t, ct n_s n_x p t = ct n_s n_x p' t).
    { intros u. apply functional_extensionality. intros l. unfold ct, slice.
      destruct (Nat.ltb_spec l n_x); [apply E; lia|reflexivity]. }
    destruct (Nat.lt_ge_cases k n_s).
    - destruct t as [|t].
      + rewrite !det_res_start by lia. now rewrite E by lia.
      + rewrite !det_res_transition by lia. now rewrite Es, Ec, E by lia.
    - replace k with (n_s + (k - n_s))%nat by lia. destruct (Nat.lt_ge_cases (S t) N).
      + rewrite !det_res_arbitrage by lia. now rewrite !Es, !Ec.
      + replace t with (N - 1)%nat by lia. rewrite !det_res_end by lia. now rewrite !E by lia.
  Qed.

  (** Residual of a flat vector small -> the path solves the system up to it. *)
  Lemma ff_small : forall N v start m d,
      (2 <= N)%nat -> (0 < n)%nat -> supnorm (N * n) (fst (FF N start m v)) < d ->
      perfect_foresight_within n_s n_x G F d (N - 1) start m
        (states_of n_s (reshape n_s n_x v)) (controls_of n_s n_x (reshape n_s n_x v)).
  Proof.
    intros N v start m d HN Hn H.
    assert (E : det_residual n_s n_x G F (pm_g_s md) (pm_g_x md) (pm_f_s md) (pm_f_x md) (pm_f_S md) (pm_f_X md)
                  N N (reshape n_s n_x v) start m
                = Ok (dres N (reshape n_s n_x v) start m, djac N (reshape n_s n_x v) m)).
    { unfold det_residual. rewrite Nat.eqb_refl. cbn [negb].
      destruct (Nat.ltb_spec N 2); [lia|reflexivity]. }
    apply (det_residual_small _ _ _ _ _ _ _ _ _ _ _ _ _ _ _ _ _ d E).
    intros t k Ht Hk. eapply Rle_lt_trans; [|exact H].
    pose proof (supnorm_ge (N * n) (fst (FF N start m v)) (t * n + k) (flat_lt N t k Ht Hk)) as Hs.
    unfold ff in Hs at 1. cbn [fst] in Hs.
    rewrite <- (reshape_ravel R (dres N (reshape n_s n_x v) start m) t k Hk). exact Hs.
  Qed.

  (** ** What a successful run did *)

  Lemma pf_start_inv : forall a eps sx s1,
      pf_start G (pm_names md) (pm_m md) (pm_s md) (pm_x md) (pm_steady md) a = Ok (eps, sx, s1) ->
      shocks_to_epsilons (pm_names md) (pm_m md) (a_exogenous a) (a_T a) = Ok eps /\
      (1 <= a_T a)%nat /\ start_of md a eps s1 /\
      (given (a_exogenous a) = true -> pm_steady md (eps 0%nat) = Ok sx).
  Proof.
    intros a eps sx s1 H. unfold pf_start in H.
    destruct (shocks_to_epsilons _ _ _ _) as [e|] eqn:E; cbn [bind] in H; [|discriminate].
    unfold start_of. destruct (given (a_exogenous a)).
    - destruct (pm_steady md (e 0%nat)) as [[s0 x0]|] eqn:ES; cbn [bind] in H; [|discriminate].
      destruct (Nat.eqb_spec (a_T a) 0); [discriminate|]. injection H as <- <- <-.
      repeat split; [lia|exists s0, x0; split; [exact ES|reflexivity]|intros _; exact ES].
    - destruct (Nat.eqb_spec (a_T a) 0); [discriminate|]. injection H as <- <- <-.
      repeat split; [lia|intros; discriminate].
  Qed.

  Lemma output_rows : forall a N sx eps sol w,
      let o := pf_output n_s a N sx eps sol w in
      o_rows o = (N + kept a)%nat /\ o_first o = (- Z.of_nat (kept a))%Z /\ o_warned o = w /\
      (forall t, o_sol o (kept a + t)%nat = sol t) /\ (forall t, o_eps o (kept a + t)%nat = eps t).
  Proof.
    intros a N sx eps sol w. unfold pf_output, kept. destruct (given (a_exogenous a) && a_keep a); cbn.
    - repeat split; lia.
    - repeat split; lia.
  Qed.

  Lemma solve_unconstrained : forall a, unconstrained md a ->
      pf_solve md sv a =
      bind (pf_start G (pm_names md) (pm_m md) (pm_s md) (pm_x md) (pm_steady md) a) (fun '(eps, sx, s1) =>
      bind (pf_guess n_s n_x (pm_s md) (pm_x md) a s1) (fun '(N, guess) =>
      bind (det_residual n_s n_x G F (pm_g_s md) (pm_g_x md) (pm_f_s md) (pm_f_x md) (pm_f_S md) (pm_f_X md)
              N (a_T a + 1) guess s1 eps) (fun _ =>
      bind (newton (N * n) (FF N s1 eps) (ps_linear sv) default_tol default_maxit (ravel n_s n_x guess))
           (fun '(v, it, conv) => Ok (pf_output n_s a N sx eps (reshape n_s n_x v) (Some (negb conv))))))).
  Proof.
    intros a [H|H]; unfold pf_solve, deterministic_solve; rewrite H; [reflexivity|].
    destruct (pm_bounds md) as [[? ?]|]; reflexivity.
  Qed.

  Lemma det_residual_rows : forall g f gs gx fs fx fS fX N Nsh guess st m r,
      det_residual n_s n_x g f gs gx fs fx fS fX N Nsh guess st m = Ok r -> N = Nsh /\ (2 <= N)%nat.
  Proof.
    intros until r. unfold det_residual. destruct (Nat.eqb_spec N Nsh); cbn [negb]; [|discriminate].
    destruct (Nat.ltb_spec N 2); [discriminate|]. intros _. split; [assumption|lia].
  Qed.

  (** C90, without bounds. *)
  Lemma solve_unconstrained_answer : forall a o,
      (0 < n)%nat -> unconstrained md a -> pf_solve md sv a = Ok o -> o_warned o = Some false ->
      exists eps s1,
        shocks_to_epsilons (pm_names md) (pm_m md) (a_exogenous a) (a_T a) = Ok eps /\
        start_of md a eps s1 /\
        o_rows o = (a_T a + 1 + kept a)%nat /\ o_first o = (- Z.of_nat (kept a))%Z /\
        (forall t, o_eps o (kept a + t)%nat = eps t) /\
        perfect_foresight_within n_s n_x G F default_tol (a_T a) s1 eps
          (states_of n_s (fun t => o_sol o (kept a + t)%nat))
          (controls_of n_s n_x (fun t => o_sol o (kept a + t)%nat)).
  Proof.
    intros a o Hn Hu H Hw. rewrite solve_unconstrained in H by exact Hu.
    destruct (pf_start _ _ _ _ _ _ a) as [[[eps sx] s1]|] eqn:ES; cbn [bind] in H; [|discriminate].
    destruct (pf_guess _ _ _ _ a s1) as [[N guess]|] eqn:EG; cbn [bind] in H; [|discriminate].
    destruct (det_residual _ _ _ _ _ _ _ _ _ _ _ _ _ _ _) as [rj|] eqn:ER; cbn [bind] in H; [|discriminate].
    destruct (newton _ _ _ _ _ _) as [[[v it] conv]|] eqn:EN; cbn [bind] in H; [|discriminate].
    injection H as <-. apply det_residual_rows in ER. destruct ER as [-> HN].
    apply pf_start_inv in ES. destruct ES as (E1 & E2 & E3 & _).
    pose proof (output_rows a (a_T a + 1) sx eps (reshape n_s n_x v) (Some (negb conv))) as O. cbv zeta in O.
    destruct O as (O1 & O2 & O3 & O4 & O5).
    rewrite O3 in Hw. injection Hw as Hw. apply negb_false_iff in Hw. subst conv.
    assert (Hpos : (0 < (a_T a + 1) * n)%nat) by (apply Nat.mul_pos_pos; lia).
    apply newton_final in EN; [|exact Hpos]. destruct EN as (_ & C1 & C2 & _).
    exists eps, s1. repeat split; try assumption.
    - eapply ff_small in C2; [|lia|exact Hn|now apply C1].
      replace (a_T a + 1 - 1)%nat with (a_T a) in C2 by lia.
      replace (fun t => o_sol _ (kept a + t)%nat) with (reshape n_s n_x v)
        by (apply functional_extensionality; intros t; symmetry; apply O4).
      exact (proj1 C2).
    - eapply ff_small in C2; [|lia|exact Hn|now apply C1].
      replace (a_T a + 1 - 1)%nat with (a_T a) in C2 by lia.
      replace (fun t => o_sol _ (kept a + t)%nat) with (reshape n_s n_x v)
        by (apply functional_extensionality; intros t0; symmetry; apply O4).
      destruct C2 as (_ & C2 & _). apply C2. assumption.
    - eapply ff_small in C2; [|lia|exact Hn|now apply C1].
      replace (a_T a + 1 - 1)%nat with (a_T a) in C2 by lia.
      replace (fun t => o_sol _ (kept a + t)%nat) with (reshape n_s n_x v)
        by (apply functional_extensionality; intros t0; symmetry; apply O4).
      destruct C2 as (_ & C2 & _). apply C2. assumption.
    - eapply ff_small in C2; [|lia|exact Hn|now apply C1].
      replace (a_T a + 1 - 1)%nat with (a_T a) in C2 by lia.
      replace (fun t => o_sol _ (kept a + t)%nat) with (reshape n_s n_x v)
        by (apply functional_extensionality; intros t0; symmetry; apply O4).
      exact (proj2 (proj2 C2)).
  Qed.

  (** C93: without bounds the user's maxit and tol are not used. *)
  Lemma solve_ignores_settings : forall a maxit tol,
      unconstrained md a -> pf_solve md sv (with_settings a maxit tol) = pf_solve md sv a.
  Proof.
    intros a maxit tol Hu. rewrite !solve_unconstrained by exact Hu. reflexivity.
  Qed.

  (** ** Bounds *)

  Lemma solve_constrained : forall a lbf ubf,
      pm_bounds md = Some (lbf, ubf) -> a_ignore a = false ->
      pf_solve md sv a =
      bind (pf_start G (pm_names md) (pm_m md) (pm_s md) (pm_x md) (pm_steady md) a) (fun '(eps, sx, s1) =>
      bind (pf_guess n_s n_x (pm_s md) (pm_x md) a s1) (fun '(N, guess) =>
      if negb (Nat.eqb N (a_T a + 1)) then Err ExcValue else
      bind (stacked_bounds n_s n_x N (fun t => lbf (eps t) (st n_s guess t)) (fun t => ubf (eps t) (st n_s guess t)))
           (fun '(lower, upper) =>
      bind (det_residual n_s n_x G F (pm_g_s md) (pm_g_x md) (pm_f_s md) (pm_f_x md) (pm_f_S md) (pm_f_X md)
              N (a_T a + 1) guess s1 eps) (fun _ =>
      match a_solver a with
      | SNcpsolve =>
          bind (ncpsolve (ps_nan sv) (N * n) JSparse (FF N s1 eps) (ps_linear sv)
                  (ravel n_s n_x lower) (ravel n_s n_x upper) (a_tol a) (a_maxit a) (ravel n_s n_x guess))
               (fun '(v, it, conv) => Ok (pf_output n_s a N sx eps (reshape n_s n_x v) (Some (negb conv))))
      | SLmmcp =>
          bind (ps_lmmcp sv (fun u => fst (FF N s1 eps u)) (fun u => snd (FF N s1 eps u))
                  (ravel n_s n_x lower) (ravel n_s n_x upper) (fun q => Fin (ravel n_s n_x guess q)))
               (fun v => Ok (pf_output n_s a N sx eps (reshape n_s n_x v) None))
      end)))).
  Proof.
    intros a lbf ubf Hb Hi. unfold pf_solve, deterministic_solve. rewrite Hb, Hi. reflexivity.
  Qed.

  Lemma stacked_bounds_ok : forall N lb ub lower upper,
      stacked_bounds n_s n_x N lb ub = Ok (lower, upper) ->
      lower = stacked_bound n_s MInf lb /\ upper = stacked_bound n_s PInf ub.
  Proof.
    intros N lb ub lower upper H. unfold stacked_bounds in H.
    destruct (bound_test n_x N lb); cbn [bind] in H; [|discriminate].
    destruct (bound_test n_x N ub); cbn [bind] in H; [|discriminate].
    destruct (flt_gtb _ _ || flt_gtb _ _); [discriminate|]. injection H as <- <-. now split.
  Qed.

  Lemma ravel_flat : forall A (p : nat -> nat -> A) t k, (k < n)%nat -> ravel n_s n_x p (t * n + k)%nat = p t k.
  Proof. intros A p t k Hk. exact (reshape_ravel A p t k Hk). Qed.

  Lemma mcp_free : forall d x fx, mcp_approx d MInf PInf x fx -> Rabs fx <= d.
  Proof. intros d x fx (_ & _ & H1 & H2). cbn in *. specialize (H1 I). specialize (H2 I). apply Rabs_le. lra. Qed.

  (** C90, with bounds; they are those of the starting path [guess]. *)
  Lemma solve_ncp_answer : forall a lbf ubf o,
      (0 < n)%nat -> pm_bounds md = Some (lbf, ubf) -> a_ignore a = false -> a_solver a = SNcpsolve ->
      regular_bounds md lbf ubf ->
      pf_solve md sv a = Ok o -> o_warned o = Some false ->
      exists eps s1 guess,
        shocks_to_epsilons (pm_names md) (pm_m md) (a_exogenous a) (a_T a) = Ok eps /\
        start_of md a eps s1 /\
        pf_guess n_s n_x (pm_s md) (pm_x md) a s1 = Ok ((a_T a + 1)%nat, guess) /\
        o_rows o = (a_T a + 1 + kept a)%nat /\ o_first o = (- Z.of_nat (kept a))%Z /\
        (forall t, o_eps o (kept a + t)%nat = eps t) /\
        constrained_foresight_within n_s n_x G F (3 * a_tol a)
          (fun t k => lower_cut BIG (lbf (eps t) (states_of n_s guess t) k))
          (fun t k => upper_cut BIG (ubf (eps t) (states_of n_s guess t) k))
          (a_T a) s1 eps
          (states_of n_s (fun t => o_sol o (kept a + t)%nat))
          (controls_of n_s n_x (fun t => o_sol o (kept a + t)%nat)).
  Proof.
    intros a lbf ubf o Hn Hb Hi Hs Hr H Hw. rewrite (solve_constrained a lbf ubf Hb Hi), Hs in H.
    destruct (pf_start _ _ _ _ _ _ a) as [[[eps sx] s1]|] eqn:ES; cbn [bind] in H; [|discriminate].
    destruct (pf_guess _ _ _ _ a s1) as [[N guess]|] eqn:EG; cbn [bind] in H; [|discriminate].
    destruct (Nat.eqb_spec N (a_T a + 1)) as [->|]; cbn [negb] in H; [|discriminate].
    destruct (stacked_bounds _ _ _ _ _) as [[lower upper]|] eqn:EB; cbn [bind] in H; [|discriminate].
    destruct (det_residual _ _ _ _ _ _ _ _ _ _ _ _ _ _ _) as [rj|] eqn:ER; cbn [bind] in H; [|discriminate].
    destruct (ncpsolve _ _ _ _ _ _ _ _ _ _) as [[[v it] conv]|] eqn:EN; cbn [bind] in H; [|discriminate].
    injection H as <-. apply det_residual_rows in ER. destruct ER as [_ HN].
    apply pf_start_inv in ES. destruct ES as (E1 & E2 & E3 & _).
    apply stacked_bounds_ok in EB. destruct EB as [-> ->].
    pose proof (output_rows a (a_T a + 1) sx eps (reshape n_s n_x v) (Some (negb conv))) as O. cbv zeta in O.
    destruct O as (O1 & O2 & O3 & O4 & O5).
    rewrite O3 in Hw. injection Hw as Hw. apply negb_false_iff in Hw. subst conv.
    assert (Hpos : (0 < (a_T a + 1) * n)%nat) by (apply Nat.mul_pos_pos; lia).
    assert (Hit : (it < a_maxit a)%nat).
    { unfold ncpsolve in EN. apply newton_final in EN; [|exact Hpos]. apply (proj2 (proj1 (proj2 EN))). reflexivity. }
    apply ncpsolve_final in EN; [|exact Hpos|discriminate|].
    2:{ intros q Hq. destruct (ravel_bound _ _ Hq) as [B1 B2]. unfold ravel, stacked_bound.
        destruct (Nat.ltb_spec (q mod n) n_s).
        - split; [discriminate|]. split; [discriminate|]. exact I.
        - apply Hr. lia. }
    destruct EN as (_ & C). specialize (C Hit).
    assert (C' : forall t k, (t < a_T a + 1)%nat -> (k < n)%nat ->
      mcp_approx (3 * a_tol a)
        (lower_cut BIG (stacked_bound n_s MInf (fun t => lbf (eps t) (st n_s guess t)) t k))
        (upper_cut BIG (stacked_bound n_s PInf (fun t => ubf (eps t) (st n_s guess t)) t k))
        (reshape n_s n_x v t k) (dres (a_T a + 1) (reshape n_s n_x v) s1 eps t k)).
    { intros t k Ht Hk. specialize (C (t * n + k)%nat (flat_lt _ _ _ Ht Hk)).
      rewrite !ravel_flat in C by exact Hk. unfold ff in C. cbn [fst] in C. rewrite ravel_flat in C by exact Hk.
      exact C. }
    clear C. exists eps, s1, guess.
    replace (fun t => o_sol _ (kept a + t)%nat) with (reshape n_s n_x v)
      by (apply functional_extensionality; intros t; symmetry; apply O4).
    assert (Cs : forall t k, (t < a_T a + 1)%nat -> (k < n_s)%nat ->
              Rabs (dres (a_T a + 1) (reshape n_s n_x v) s1 eps t k) <= 3 * a_tol a).
    { intros t k Ht Hk. specialize (C' t k Ht ltac:(lia)). unfold stacked_bound in C'.
      destruct (Nat.ltb_spec k n_s); [|lia]. unfold lower_cut, upper_cut in C'. cbn in C'.
      apply mcp_free in C'. exact C'. }
    assert (Cx : forall t k, (t < a_T a + 1)%nat -> (k < n_x)%nat ->
              mcp_approx (3 * a_tol a) (lower_cut BIG (lbf (eps t) (states_of n_s guess t) k))
                (upper_cut BIG (ubf (eps t) (states_of n_s guess t) k))
                (controls_of n_s n_x (reshape n_s n_x v) t k)
                (dres (a_T a + 1) (reshape n_s n_x v) s1 eps t (n_s + k)%nat)).
    { intros t k Ht Hk. specialize (C' t (n_s + k)%nat Ht ltac:(lia)). unfold stacked_bound in C'.
      destruct (Nat.ltb_spec (n_s + k) n_s); [lia|]. replace (n_s + k - n_s)%nat with k in C' by lia.
      rewrite controls_of_at by exact Hk. exact C'. }
    do 6 (split; [assumption|]). split; [|split].
    - intros k Hk. specialize (Cs 0%nat k ltac:(lia) Hk). rewrite det_res_start in Cs by lia.
      rewrite Rabs_Ropp in Cs. rewrite states_of_at by exact Hk. exact Cs.
    - intros t Ht. split; intros k Hk.
      + specialize (Cs (S t) k ltac:(lia) Hk). rewrite det_res_transition in Cs by lia.
        rewrite Rabs_minus_sym. rewrite states_of_at by exact Hk. exact Cs.
      + specialize (Cx t k ltac:(lia) Hk). rewrite det_res_arbitrage in Cx by lia. exact Cx.
    - intros k Hk. specialize (Cx (a_T a) k ltac:(lia) Hk).
      replace (dres _ _ _ _ (a_T a) (n_s + k)%nat) with
        (controls_of n_s n_x (reshape n_s n_x v) (a_T a - 1) k - controls_of n_s n_x (reshape n_s n_x v) (a_T a) k)
        in Cx; [exact Cx|].
      rewrite !controls_of_at by exact Hk.
      pose proof (det_res_end n_s n_x G F (a_T a + 1) (reshape n_s n_x v) s1 eps k ltac:(lia) Hk) as E.
      replace (a_T a + 1 - 1)%nat with (a_T a) in E by lia.
      replace (a_T a + 1 - 2)%nat with (a_T a - 1)%nat in E by lia. rewrite E. lra.
  Qed.

  (** Bounds that do not depend on the states: they are those of the returned path. *)
  Lemma solve_ncp_stateless : forall a lbf ubf o,
      (0 < n)%nat -> pm_bounds md = Some (lbf, ubf) -> a_ignore a = false -> a_solver a = SNcpsolve ->
      regular_bounds md lbf ubf ->
      (forall m s s' k, lbf m s k = lbf m s' k /\ ubf m s k = ubf m s' k) ->
      pf_solve md sv a = Ok o -> o_warned o = Some false ->
      let s := states_of n_s (fun t => o_sol o (kept a + t)%nat) in
      let x := controls_of n_s n_x (fun t => o_sol o (kept a + t)%nat) in
      exists eps s1,
        shocks_to_epsilons (pm_names md) (pm_m md) (a_exogenous a) (a_T a) = Ok eps /\
        start_of md a eps s1 /\
        o_rows o = (a_T a + 1 + kept a)%nat /\ o_first o = (- Z.of_nat (kept a))%Z /\
        (forall t, o_eps o (kept a + t)%nat = eps t) /\
        constrained_foresight_within n_s n_x G F (3 * a_tol a)
          (fun t k => lower_cut BIG (lbf (eps t) (s t) k))
          (fun t k => upper_cut BIG (ubf (eps t) (s t) k))
          (a_T a) s1 eps s x.
  Proof.
    intros a lbf ubf o Hn Hb Hi Hs Hr Hst H Hw s x.
    destruct (solve_ncp_answer a lbf ubf o Hn Hb Hi Hs Hr H Hw) as (eps & s1 & guess & H1 & H2 & _ & H4 & H5 & H6 & H7).
    exists eps, s1. do 5 (split; [assumption|]).
    replace (fun t k => lower_cut BIG (lbf (eps t) (s t) k))
      with (fun t k => lower_cut BIG (lbf (eps t) (states_of n_s guess t) k)).
    - replace (fun t k => upper_cut BIG (ubf (eps t) (s t) k))
        with (fun t k => upper_cut BIG (ubf (eps t) (states_of n_s guess t) k)); [exact H7|].
      apply functional_extensionality; intros t; apply functional_extensionality; intros k.
      f_equal. apply Hst.
    - apply functional_extensionality; intros t; apply functional_extensionality; intros k.
      f_equal. apply Hst.
  Qed.

  (** C39: how lmmcp is called. *)
  Lemma solve_lmmcp_call : forall a lbf ubf o,
      pm_bounds md = Some (lbf, ubf) -> a_ignore a = false -> a_solver a = SLmmcp ->
      pf_solve md sv a = Ok o ->
      exists eps sx s1 guess v,
        pf_start G (pm_names md) (pm_m md) (pm_s md) (pm_x md) (pm_steady md) a = Ok (eps, sx, s1) /\
        pf_guess n_s n_x (pm_s md) (pm_x md) a s1 = Ok ((a_T a + 1)%nat, guess) /\
        ps_lmmcp sv (fun u => fst (FF (a_T a + 1) s1 eps u)) (fun u => snd (FF (a_T a + 1) s1 eps u))
          (ravel n_s n_x (stacked_bound n_s MInf (fun t => lbf (eps t) (st n_s guess t))))
          (ravel n_s n_x (stacked_bound n_s PInf (fun t => ubf (eps t) (st n_s guess t))))
          (fun q => Fin (ravel n_s n_x guess q)) = Ok v /\
        o = pf_output n_s a (a_T a + 1) sx eps (reshape n_s n_x v) None.
  Proof.
    intros a lbf ubf o Hb Hi Hs H. rewrite (solve_constrained a lbf ubf Hb Hi), Hs in H.
    destruct (pf_start _ _ _ _ _ _ a) as [[[eps sx] s1]|] eqn:ES; cbn [bind] in H; [|discriminate].
    destruct (pf_guess _ _ _ _ a s1) as [[N guess]|] eqn:EG; cbn [bind] in H; [|discriminate].
    destruct (Nat.eqb_spec N (a_T a + 1)) as [->|]; cbn [negb] in H; [|discriminate].
    destruct (stacked_bounds _ _ _ _ _) as [[lower upper]|] eqn:EB; cbn [bind] in H; [|discriminate].
    destruct (det_residual _ _ _ _ _ _ _ _ _ _ _ _ _ _ _) as [rj|] eqn:ER; cbn [bind] in H; [|discriminate].
    apply stacked_bounds_ok in EB. destruct EB as [-> ->].
    destruct (ps_lmmcp _ _ _ _ _ _) as [v|] eqn:EL; cbn [bind] in H; [|discriminate]. injection H as <-.
    exists eps, sx, s1, guess, v. repeat split; assumption.
  Qed.

  (** ** C91: warm starts *)

  Lemma output_rows_unkept : forall a o, pf_solve md sv a = Ok o -> o_rows o = (a_T a + 1 + kept a)%nat.
  Proof.
    intros a o H. unfold pf_solve, deterministic_solve in H.
    destruct (pf_start _ _ _ _ _ _ a) as [[[eps sx] s1]|] eqn:ES; cbn [bind] in H; [|discriminate].
    destruct (pf_guess _ _ _ _ a s1) as [[N guess]|] eqn:EG; cbn [bind] in H; [|discriminate].
    destruct (pm_bounds md) as [[lbf ubf]|]; [destruct (a_ignore a)|].
    - destruct (det_residual _ _ _ _ _ _ _ _ _ _ _ _ _ _ _) as [rj|] eqn:ER; cbn [bind] in H; [|discriminate].
      apply det_residual_rows in ER. destruct ER as [-> _].
      destruct (newton _ _ _ _ _ _) as [[[v it] conv]|] eqn:EN; cbn [bind] in H; [|discriminate].
      injection H as <-. apply output_rows.
    - destruct (Nat.eqb_spec N (a_T a + 1)) as [->|]; cbn [negb] in H; [|discriminate].
      destruct (stacked_bounds _ _ _ _ _) as [[lower upper]|] eqn:EB; cbn [bind] in H; [|discriminate].
      destruct (det_residual _ _ _ _ _ _ _ _ _ _ _ _ _ _ _) as [rj|] eqn:ER; cbn [bind] in H; [|discriminate].
      destruct (a_solver a).
      + destruct (ncpsolve _ _ _ _ _ _ _ _ _ _) as [[[v it] conv]|] eqn:EN; cbn [bind] in H; [|discriminate].
        injection H as <-. apply output_rows.
      + destruct (ps_lmmcp _ _ _ _ _ _) as [v|] eqn:EL; cbn [bind] in H; [|discriminate]. injection H as <-.
        apply output_rows.
    - destruct (det_residual _ _ _ _ _ _ _ _ _ _ _ _ _ _ _) as [rj|] eqn:ER; cbn [bind] in H; [|discriminate].
      apply det_residual_rows in ER. destruct ER as [-> _].
      destruct (newton _ _ _ _ _ _) as [[[v it] conv]|] eqn:EN; cbn [bind] in H; [|discriminate].
      injection H as <-. apply output_rows.
  Qed.

  (** A guess of the wrong height is refused. *)
  Lemma guess_height : forall a rows cols p o,
      pf_solve md sv (with_guess a (Some (rows, cols, p))) = Ok o -> (rows = a_T a + 2)%nat.
  Proof.
    intros a rows cols p o H. unfold pf_solve, deterministic_solve in H.
    destruct (pf_start _ _ _ _ _ _ _) as [[[eps sx] s1]|] eqn:ES; cbn [bind] in H; [|discriminate].
    apply pf_start_inv in ES. destruct ES as (_ & HT & _). cbn in HT.
    unfold pf_guess in H. cbn [a_guess with_guess] in H.
    destruct (Nat.ltb cols n); cbn [bind] in H; [discriminate|]. cbn [a_T with_guess] in H.
    destruct (pm_bounds md) as [[lbf ubf]|]; [destruct (a_ignore _)|].
    - destruct (det_residual _ _ _ _ _ _ _ _ _ _ _ _ _ _ _) as [rj|] eqn:ER; cbn [bind] in H; [|discriminate].
      apply det_residual_rows in ER. lia.
    - destruct (Nat.eqb_spec (rows - 1) (a_T a + 1)); cbn [negb] in H; [lia|discriminate].
    - destruct (det_residual _ _ _ _ _ _ _ _ _ _ _ _ _ _ _) as [rj|] eqn:ER; cbn [bind] in H; [|discriminate].
      apply det_residual_rows in ER. lia.
  Qed.

  (** The table returned by a call is not an acceptable guess for the same call. *)
  Lemma warm_start_refused : forall a o,
      kept a = 0%nat -> pf_solve md sv a = Ok o ->
      is_err (pf_solve md sv (with_guess a (Some (o_rows o, n, o_sol o)))).
  Proof.
    intros a o K H. apply output_rows_unkept in H.
    destruct (pf_solve md sv (with_guess a (Some (o_rows o, n, o_sol o)))) as [o'|e] eqn:E; [|eexists; reflexivity].
    apply guess_height in E. lia.
  Qed.

  (** With the steady-state row kept it is, and without bounds it is returned unchanged. *)
  Lemma newton_immediate : forall Jac (nn : nat) (h : vecR -> vecR * Jac) ls tol maxit x,
      (0 < nn)%nat -> (0 < maxit)%nat -> supnorm nn (fst (h x)) < tol ->
      newton nn h ls tol maxit x = Ok (x, 0%nat, true).
  Proof.
    intros Jac nn h ls tol maxit x Hnn Hm Ht. unfold newton. destruct maxit as [|k]; [lia|].
    cbn [newton_loop]. destruct (Nat.eqb_spec nn 0); [lia|]. destruct (h x) as [v dv]. cbn [fst] in Ht.
    destruct (Rlt_dec (supnorm nn v) tol); [reflexivity|contradiction].
  Qed.

  Lemma warm_start_kept : forall a o,
      (0 < n)%nat -> unconstrained md a -> kept a = 1%nat ->
      pf_solve md sv a = Ok o -> o_warned o = Some false ->
      exists o', pf_solve md sv (with_guess a (Some (o_rows o, n, o_sol o))) = Ok o' /\
        o_warned o' = Some false /\ o_rows o' = o_rows o /\
        forall t k, (k < n)%nat -> o_sol o' (S t) k = o_sol o (S t) k.
  Proof.
    intros a o Hn Hu HK H Hw. pose proof (output_rows_unkept a o H) as HR. rewrite HK in HR.
    assert (Hu' : unconstrained md (with_guess a (Some (o_rows o, n, o_sol o)))) by exact Hu.
    rewrite solve_unconstrained in H by exact Hu. rewrite solve_unconstrained by exact Hu'.
    change (pf_start G (pm_names md) (pm_m md) (pm_s md) (pm_x md) (pm_steady md)
              (with_guess a (Some (o_rows o, n, o_sol o))))
      with (pf_start G (pm_names md) (pm_m md) (pm_s md) (pm_x md) (pm_steady md) a).
    destruct (pf_start _ _ _ _ _ _ a) as [[[eps sx] s1]|] eqn:ES; cbn [bind] in H; [|discriminate].
    destruct (pf_guess _ _ _ _ a s1) as [[N guess]|] eqn:EG; cbn [bind] in H; [|discriminate].
    destruct (det_residual _ _ _ _ _ _ _ _ _ _ _ _ _ _ _) as [rj|] eqn:ER; cbn [bind] in H; [|discriminate].
    destruct (newton _ _ _ _ _ _) as [[[v it] conv]|] eqn:EN; cbn [bind] in H; [|discriminate].
    injection H as H. apply det_residual_rows in ER. destruct ER as [-> HN].
    pose proof (output_rows a (a_T a + 1) sx eps (reshape n_s n_x v) (Some (negb conv))) as O. cbv zeta in O.
    rewrite H in O. destruct O as (_ & _ & O3 & O4 & _).
    rewrite O3 in Hw. injection Hw as Hw. apply negb_false_iff in Hw. subst conv. rewrite HK in O4. cbn in O4.
    assert (Hpos : (0 < (a_T a + 1) * n)%nat) by (apply Nat.mul_pos_pos; lia).
    apply newton_final in EN; [|exact Hpos]. destruct EN as (_ & C1 & C2 & _).
    specialize (C2 (proj2 C1 eq_refl)).
    cbn [bind]. unfold pf_guess. cbn [a_guess with_guess]. destruct (Nat.ltb_spec n n); [lia|]. cbn [bind].
    cbn [a_T with_guess]. replace (o_rows o - 1)%nat with (a_T a + 1)%nat by lia.
    unfold det_residual. rewrite Nat.eqb_refl. cbn [negb].
    destruct (Nat.ltb_spec (a_T a + 1) 2); [lia|]. cbn [bind].
    set (p := fun t k => o_sol o (S t) k).
    assert (Ep : p = reshape n_s n_x v).
    { apply functional_extensionality. intros t. apply functional_extensionality. intros k. unfold p. now rewrite O4. }
    rewrite Ep.
    assert (Hs : supnorm ((a_T a + 1) * n) (fst (FF (a_T a + 1) s1 eps (ravel n_s n_x (reshape n_s n_x v)))) < default_tol).
    { eapply Rle_lt_trans; [|exact C2]. apply supnorm_le; [apply supnorm_nonneg|]. intros q Hq.
      destruct (ravel_bound _ _ Hq) as [B1 B2].
      unfold ff. cbn [fst]. unfold ravel at 1.
      rewrite (dres_ext (a_T a + 1) _ (reshape n_s n_x v)) by (try lia; intros; now apply reshape_ravel).
      apply (supnorm_ge _ (ravel n_s n_x (dres (a_T a + 1) (reshape n_s n_x v) s1 eps)) q Hq). }
    rewrite newton_immediate by (try exact Hpos; try exact Hs; unfold default_maxit; lia).
    cbn [bind negb]. eexists. split; [reflexivity|].
    pose proof (output_rows (with_guess a (Some (o_rows o, n, o_sol o))) (a_T a + 1) sx eps
                  (reshape n_s n_x (ravel n_s n_x (reshape n_s n_x v))) (Some false)) as O. cbv zeta in O.
    destruct O as (Q1 & _ & Q3 & Q4 & _).
    assert (HK' : kept (with_guess a (Some (o_rows o, n, o_sol o))) = 1%nat) by exact HK.
    rewrite HK' in Q1, Q4. split; [exact Q3|]. split; [lia|]. intros t k Hk. cbn in Q4. rewrite Q4.
    rewrite reshape_ravel by exact Hk. now rewrite <- O4.
  Qed.
End Solve.

(** ** C92: varying bounds *)

Lemma fold_emax_fin : forall (b : nat -> R) l h,
    exists M, fold_left emax (map (fun t => Fin (b t)) l) (Fin h) = Fin M /\
              h <= M /\ forall t, In t l -> b t <= M.
Proof.
  intros b l. induction l as [|t l IH]; intros h; simpl.
  - exists h. repeat split; [lra|contradiction].
  - destruct (IH (Rmax h (b t))) as (M & E & H1 & H2). exists M. split; [exact E|].
    pose proof (Rmax_l h (b t)). pose proof (Rmax_r h (b t)).
    split; [lra|]. intros u [<-|Hu]; [lra|]. now apply H2.
Qed.

Lemma fold_emin_fin : forall (b : nat -> R) l h,
    exists M, fold_left emin (map (fun t => Fin (b t)) l) (Fin h) = Fin M /\
              M <= h /\ forall t, In t l -> M <= b t.
Proof.
  intros b l. induction l as [|t l IH]; intros h; simpl.
  - exists h. repeat split; [lra|contradiction].
  - destruct (IH (Rmin h (b t))) as (M & E & H1 & H2). exists M. split; [exact E|].
    pose proof (Rmin_l h (b t)). pose proof (Rmin_r h (b t)).
    split; [lra|]. intros u [<-|Hu]; [lra|]. now apply H2.
Qed.

Lemma spread_fin : forall N b (r : nat -> R) k,
    (1 <= N)%nat -> (forall t, (t < N)%nat -> b t k = Fin (r t)) ->
    exists w, spread N b k = Num w /\ forall t t', (t < N)%nat -> (t' < N)%nat -> r t - r t' <= w.
Proof.
  intros N b r k HN Hb. unfold spread. rewrite (Hb 0%nat) by lia.
  assert (E : map (fun t => b t k) (seq 1 (N - 1)) = map (fun t => Fin (r t)) (seq 1 (N - 1))).
  { apply map_ext_in. intros t Ht. apply in_seq in Ht. apply Hb. lia. }
  rewrite E. destruct (fold_emax_fin r (seq 1 (N - 1)) (r 0%nat)) as (M & -> & M1 & M2).
  destruct (fold_emin_fin r (seq 1 (N - 1)) (r 0%nat)) as (m & -> & m1 & m2).
  exists (M - m). split; [reflexivity|].
  assert (Up : forall t, (t < N)%nat -> r t <= M).
  { intros [|t] Ht; [exact M1|]. apply M2. apply in_seq. lia. }
  assert (Lo : forall t, (t < N)%nat -> m <= r t).
  { intros [|t] Ht; [exact m1|]. apply m2. apply in_seq. lia. }
  intros t t' Ht Ht'. specialize (Up t Ht). specialize (Lo t' Ht'). lra.
Qed.

Lemma py_max_num : forall l h, (forall e, In e l -> exists r, e = Num r) ->
    forall r0, h = Num r0 -> exists w, py_max h l = Num w /\ r0 <= w /\ forall r, In (Num r) l -> r <= w.
Proof.
  induction l as [|e l IH]; intros h Hl r0 ->.
  - exists r0. cbn. repeat split; [lra|contradiction].
  - destruct (Hl e (or_introl eq_refl)) as [r ->]. unfold py_max. cbn [fold_left].
    change (fold_left _ l ?x) with (py_max x l). cbn [flt_gtb].
    destruct (Rlt_dec r0 r) as [L|L].
    + destruct (IH (Num r) (fun e He => Hl e (or_intror He)) r eq_refl) as (w & E & H1 & H2).
      exists w. split; [exact E|]. split; [lra|]. intros u [Hu|Hu]; [injection Hu as <-; lra|now apply H2].
    + destruct (IH (Num r0) (fun e He => Hl e (or_intror He)) r0 eq_refl) as (w & E & H1 & H2).
      exists w. split; [exact E|]. split; [lra|]. intros u [Hu|Hu]; [injection Hu as <-; lra|now apply H2].
Qed.

Lemma bound_test_fin : forall n_x N b (r : nat -> nat -> R),
    (1 <= N)%nat -> (0 < n_x)%nat ->
    (forall t k, (t < N)%nat -> (k < n_x)%nat -> b t k = Fin (r t k)) ->
    exists w, bound_test n_x N b = Ok (Num w) /\
      forall t t' k, (t < N)%nat -> (t' < N)%nat -> (k < n_x)%nat -> r t k - r t' k <= w.
Proof.
  intros n_x N b r HN Hx Hb. unfold bound_test.
  assert (Hs : forall k, (k < n_x)%nat -> exists w, spread N b k = Num w /\
             forall t t', (t < N)%nat -> (t' < N)%nat -> r t k - r t' k <= w).
  { intros k Hk. apply (spread_fin N b (fun t => r t k) k HN). intros t Ht. now apply Hb. }
  destruct n_x as [|n_x]; [lia|]. cbn [seq map].
  destruct (Hs 0%nat ltac:(lia)) as (w0 & E0 & H0).
  destruct (py_max_num (map (spread N b) (seq 1 n_x)) (spread N b 0)) with (r0 := w0) as (w & Ew & W0 & W).
  - intros e He. apply in_map_iff in He. destruct He as (k & <- & Hk). apply in_seq in Hk.
    destruct (Hs k ltac:(lia)) as (u & Eu & _). now exists u.
  - exact E0.
  - exists w. split; [now rewrite Ew|]. intros t t' [|k] Ht Ht' Hk.
    + eapply Rle_trans; [now apply H0|exact W0].
    + destruct (Hs (S k) Hk) as (u & Eu & Hu). eapply Rle_trans; [now apply Hu|]. apply W.
      rewrite <- Eu. apply in_map. apply in_seq. lia.
Qed.

Section Varying.
  Variable md : pf_model.
  Variable sv : pf_solvers.
  Notation n_s := (pm_ns md).
  Notation n_x := (pm_nx md).

  (** Finite bounds that vary along the starting path make the call fail. *)
  Lemma varying_bounds_refused : forall a lbf ubf eps sx s1 guess N (lo up : nat -> nat -> R) t t' k,
      pm_bounds md = Some (lbf, ubf) -> a_ignore a = false ->
      pf_start (pm_g md) (pm_names md) (pm_m md) (pm_s md) (pm_x md) (pm_steady md) a = Ok (eps, sx, s1) ->
      pf_guess n_s n_x (pm_s md) (pm_x md) a s1 = Ok (N, guess) ->
      (forall t k, (t <= a_T a)%nat -> (k < n_x)%nat ->
         lbf (eps t) (states_of n_s guess t) k = Fin (lo t k) /\
         ubf (eps t) (states_of n_s guess t) k = Fin (up t k)) ->
      (t <= a_T a)%nat -> (t' <= a_T a)%nat -> (k < n_x)%nat ->
      / 100000000 < lo t k - lo t' k \/ / 100000000 < up t k - up t' k ->
      is_err (pf_solve md sv a).
  Proof.
    intros a lbf ubf eps sx s1 guess N lo up t t' k Hb Hi ES EG Hfin Ht Ht' Hk Hv.
    rewrite (solve_constrained md sv a lbf ubf Hb Hi), ES. cbn [bind]. rewrite EG. cbn [bind].
    destruct (Nat.eqb_spec N (a_T a + 1)) as [->|]; cbn [negb]; [|eexists; reflexivity].
    destruct (bound_test_fin n_x (a_T a + 1) (fun t => lbf (eps t) (st n_s guess t)) lo) as (w1 & E1 & H1);
      [lia|lia|intros; apply Hfin; lia|].
    destruct (bound_test_fin n_x (a_T a + 1) (fun t => ubf (eps t) (st n_s guess t)) up) as (w2 & E2 & H2);
      [lia|lia|intros; apply Hfin; lia|].
    unfold stacked_bounds. rewrite E1, E2. cbn [bind flt_gtb].
    specialize (H1 t t' k ltac:(lia) ltac:(lia) Hk). specialize (H2 t t' k ltac:(lia) ltac:(lia) Hk).
    destruct (Rlt_dec (/ 100000000) w1); cbn [orb bind]; [eexists; reflexivity|].
    destruct (Rlt_dec (/ 100000000) w2); cbn [orb bind]; [eexists; reflexivity|].
    destruct Hv; lra.
  Qed.
End Varying.

(** ** C69: steady states *)

Lemma residuals_zero : forall n_s n_x g f m s x,
    ((forall k, (k < n_s)%nat -> fst (residuals g f m s x) k = 0) /\
     (forall k, (k < n_x)%nat -> snd (residuals g f m s x) k = 0)) <->
    steady_state n_s n_x g f m s x.
Proof.
  intros. unfold residuals, steady_state. cbn [fst snd]. split; intros [H1 H2]; split; intros k Hk.
  - specialize (H1 k Hk). lra.
  - now apply H2.
  - rewrite H1 by exact Hk. lra.
  - now apply H2.
Qed.

(** If the root finder reports success and its success means a root, the answer is a steady state. *)
Lemma find_steady_state_success : forall n_s n_x g f root cal_s cal_x m v s x,
    root (fobj n_s n_x g f m) (concat n_s cal_s cal_x) = Ok (v, true) ->
    (forall k, (k < n_s + n_x)%nat -> fobj n_s n_x g f m v k = 0) ->
    find_steady_state n_s n_x g f root cal_s cal_x m = Ok (s, x) ->
    steady_state n_s n_x g f m s x.
Proof.
  intros n_s n_x g f root cal_s cal_x m v s x HR HZ H. unfold find_steady_state in H. rewrite HR in H.
  cbn [bind fst] in H. injection H as <- <-. unfold steady_state. split; intros k Hk.
  - specialize (HZ k ltac:(lia)). unfold fobj, residuals, concat in HZ.
    destruct (Nat.ltb_spec k n_s); [lra|lia].
  - specialize (HZ (n_s + k)%nat ltac:(lia)). unfold fobj, residuals, concat in HZ.
    destruct (Nat.ltb_spec (n_s + k) n_s); [lia|]. now replace (n_s + k - n_s)%nat with k in HZ by lia.
Qed.

Lemma find_steady_state_failure : exists n_s n_x g f root cal_s cal_x m v s x,
    root (fobj n_s n_x g f m) (concat n_s cal_s cal_x) = Ok (v, false) /\
    find_steady_state n_s n_x g f root cal_s cal_x m = Ok (s, x) /\
    ~ steady_state n_s n_x g f m s x.
Proof.
  exists 1%nat, 0%nat, (fun _ s _ _ k => s k + 1), (fun _ _ _ _ _ _ _ => 0),
    (fun _ x0 => Ok (x0, false)), (fun _ => 0), (fun _ => 0), (fun _ => 0).
  do 3 eexists. split; [reflexivity|]. split; [reflexivity|]. intros [H _].
  specialize (H 0%nat ltac:(lia)). cbn in H. lra.
Qed.

(** ** A small model: one decaying state, two controls equal to zero *)

Definition toy (b : option ((vecR -> vecR -> nat -> ext) * (vecR -> vecR -> nat -> ext))) : pf_model :=
  PfModel 1 2 (fun _ s _ _ _ => s 0%nat / 2) (fun _ _ x _ _ _ k => x k)
    (fun _ _ _ _ _ _ => 1 / 2) (fun _ _ _ _ _ _ => 0)
    (fun _ _ _ _ _ _ _ _ => 0) (fun _ _ _ _ _ _ k l => eye k l)
    (fun _ _ _ _ _ _ _ _ => 0) (fun _ _ _ _ _ _ _ _ => 0)
    ["e"%string] (fun _ => 0) (fun _ => 0) (fun _ => 0)
    (fun _ => Ok (fun _ => 0, fun _ => 0)) b.

(** One bound moves with the state, the other control is free. *)
Definition toy_lb (m s : vecR) (k : nat) : ext := if Nat.eqb k 0 then MInf else Fin (s 0%nat - 10).
Definition toy_ub (m s : vecR) (k : nat) : ext := PInf.

(** Constant bounds. *)
Definition toy_lb1 (m s : vecR) (k : nat) : ext := Fin (-1).
Definition toy_ub1 (m s : vecR) (k : nat) : ext := Fin 1.

(** The solution from s0 = 1, below an unused row. *)
Definition toy_path (t k : nat) : R :=
  match k with O => match t with O => 1 | 1%nat => 1 / 2 | _ => 1 / 4 end | _ => 0 end.

Definition toy_args (ignore : bool) (solver : pf_solver) : pf_args :=
  PfArgs SNone (Some (fun _ => 1)) None 1 10 (/ 1000) (Some (3%nat, 3%nat, toy_path)) ignore solver false.

Lemma toy_start : forall b ig so, exists eps,
    pf_start (pm_g (toy b)) (pm_names (toy b)) (pm_m (toy b)) (pm_s (toy b)) (pm_x (toy b)) (pm_steady (toy b))
      (toy_args ig so) = Ok (eps, (fun _ => 1, fun _ => 0), fun _ => 1 / 2).
Proof. intros. eexists. reflexivity. Qed.

Lemma toy_residual : forall b m q,
    (q < 6)%nat ->
    ravel 1 2 (det_res 1 2 (pm_g (toy b)) (pm_f (toy b)) 2
       (reshape 1 2 (ravel 1 2 (fun t k => toy_path (S t) k))) (fun _ => 1 / 2) m) q = 0.
Proof.
  intros b m q Hq. do 6 (destruct q as [|q]; [cbv -[Rplus Rmult Ropp Rinv IZR Rminus Rdiv]; lra|]). lia.
Qed.

Lemma supnorm_zero_lt : forall nn v d, 0 < d -> (forall i, (i < nn)%nat -> v i = 0) -> supnorm nn v < d.
Proof. intros nn v d Hd H. replace (supnorm nn v) with 0; [exact Hd|]. symmetry. now apply supnorm_zero_iff. Qed.

Lemma toy_unconstrained : forall b sv so, exists o,
    pf_solve (toy b) sv (toy_args true so) = Ok o /\ o_warned o = Some false /\
    o_rows o = 2%nat /\ (forall t, (t < 2)%nat -> forall k, (k < 3)%nat -> o_sol o t k = toy_path (S t) k).
Proof.
  intros b sv so. rewrite solve_unconstrained by (right; reflexivity).
  destruct (toy_start b true so) as [eps E]. rewrite E. cbn [bind].
  unfold pf_guess. cbn [a_guess toy_args]. cbn [Nat.ltb Nat.leb pm_ns pm_nx toy Nat.add bind Nat.sub a_T toy_args].
  unfold det_residual. cbn [Nat.eqb negb Nat.ltb Nat.leb bind].
  rewrite newton_immediate.
  - cbn [bind]. eexists. split; [reflexivity|]. split; [reflexivity|]. split; [reflexivity|].
    intros t Ht k Hk. cbn [pf_output given a_exogenous toy_args andb o_sol].
    exact (reshape_ravel (toy b) R (fun t k => toy_path (S t) k) t k Hk).
  - cbn. lia.
  - unfold default_maxit. lia.
  - apply supnorm_zero_lt; [unfold default_tol; lra|]. intros q Hq. unfold ff. cbn [fst].
    exact (toy_residual b eps q Hq).
Qed.

Lemma ncp_at_zero : forall a b x, a <> PInf -> b <> MInf -> ext_lt_l a x -> ext_lt_r x b -> ncp_value a b x (-0) = Some 0.
Proof.
  intros a b x Ha Hb La Lb. unfold ncp_value.
  assert (E : ncp_pval a x (-0) = Some 0).
  { unfold ncp_pval. destruct a as [|r|]; [cbn; f_equal; lra| |congruence].
    destruct (ext_leb (Fin r) (- BIG)); [f_equal; lra|]. cbn in La.
    f_equal. replace ((-0) ^ 2 + (r - x) ^ 2) with (Rsqr (x - r)) by (unfold Rsqr; ring).
    rewrite sqrt_Rsqr by lra. lra. }
  rewrite E. destruct b as [|r|]; [congruence| |reflexivity].
  destruct (ext_geb (Fin r) BIG); [reflexivity|]. cbn in Lb.
  f_equal. replace (0 ^ 2 + (r - x) ^ 2) with (Rsqr (r - x)) by (unfold Rsqr; ring).
  rewrite sqrt_Rsqr by lra. lra.
Qed.

Lemma toy_bounds_strict : forall lbf ubf m q,
    (lbf = toy_lb /\ ubf = toy_ub) \/ (lbf = toy_lb1 /\ ubf = toy_ub1) -> (q < 6)%nat ->
    let p := fun t k => toy_path (S t) k in
    let a := ravel 1 2 (stacked_bound 1 MInf (fun t => lbf (m t) (st 1 p t))) q in
    let b := ravel 1 2 (stacked_bound 1 PInf (fun t => ubf (m t) (st 1 p t))) q in
    a <> PInf /\ b <> MInf /\ ext_lt_l a (ravel 1 2 p q) /\ ext_lt_r (ravel 1 2 p q) b.
Proof.
  intros lbf ubf m q [[-> ->]|[-> ->]] Hq; cbv zeta.
  - do 6 (destruct q as [|q];
      [cbv -[Rplus Rmult Ropp Rinv IZR Rminus Rdiv Rlt]; repeat split; try discriminate; lra|]). lia.
  - do 6 (destruct q as [|q];
      [cbv -[Rplus Rmult Ropp Rinv IZR Rminus Rdiv Rlt]; repeat split; try discriminate; lra|]). lia.
Qed.

Lemma toy_bounds_accepted : forall lbf ubf (m : nat -> nat -> R),
    (lbf = toy_lb /\ ubf = toy_ub) \/ (lbf = toy_lb1 /\ ubf = toy_ub1) ->
    let p := fun t k => toy_path (S t) k in
    stacked_bounds 1 2 2 (fun t => lbf (m t) (st 1 p t)) (fun t => ubf (m t) (st 1 p t)) =
    Ok (stacked_bound 1 MInf (fun t => lbf (m t) (st 1 p t)), stacked_bound 1 PInf (fun t => ubf (m t) (st 1 p t))).
Proof.
  intros lbf ubf m [[-> ->]|[-> ->]] p; unfold stacked_bounds, bound_test, p; cbn.
  - reflexivity.
  - unfold py_max. cbn.
    rewrite !Rmax_left, !Rmin_left by lra.
    repeat match goal with |- context[Rlt_dec ?a ?b] => destruct (Rlt_dec a b); [lra|]; cbn end. reflexivity.
Qed.

Lemma toy_ncp : forall lbf ubf sv,
    (lbf = toy_lb /\ ubf = toy_ub) \/ (lbf = toy_lb1 /\ ubf = toy_ub1) ->
    exists o,
    pf_solve (toy (Some (lbf, ubf))) sv (toy_args false SNcpsolve) = Ok o /\ o_warned o = Some false /\
    o_rows o = 2%nat /\ (forall t, (t < 2)%nat -> forall k, (k < 3)%nat -> o_sol o t k = toy_path (S t) k).
Proof.
  intros lbf ubf sv Hc. rewrite (solve_constrained (toy (Some (lbf, ubf))) sv (toy_args false SNcpsolve) lbf ubf eq_refl eq_refl).
  destruct (toy_start (Some (lbf, ubf)) false SNcpsolve) as [eps E]. rewrite E. cbn [bind].
  unfold pf_guess. cbn [a_guess toy_args]. cbn [Nat.ltb Nat.leb pm_ns pm_nx toy Nat.add bind Nat.sub a_T toy_args].
  cbn [Nat.eqb negb].
  rewrite toy_bounds_accepted by exact Hc. cbn [bind].
  unfold det_residual. cbn [Nat.eqb negb Nat.ltb Nat.leb bind]. cbn [a_solver].
  unfold ncpsolve. rewrite newton_immediate.
  - cbn [bind]. eexists. split; [reflexivity|]. split; [reflexivity|]. split; [reflexivity|].
    intros t Ht k Hk. cbn [pf_output given a_exogenous toy_args andb o_sol].
    exact (reshape_ravel (toy None) R (fun t k => toy_path (S t) k) t k Hk).
  - cbn. lia.
  - cbn. lia.
  - apply supnorm_zero_lt; [cbn; lra|]. intros q Hq. unfold ncp_fcmp, ff. cbn [fst].
    pose proof (toy_residual (Some (lbf, ubf)) eps q Hq) as Z. rewrite Z.
    destruct (toy_bounds_strict lbf ubf eps q Hc Hq) as (B1 & B2 & B3 & B4).
    unfold ncp_smooth_value. rewrite ncp_at_zero by assumption. reflexivity.
Qed.


(** A solver that returns its starting point. *)
Definition stay (F : vecR -> vecR) (DF : vecR -> nat -> nat -> R) (x0 lb ub : nat -> ext) : res vecR :=
  Ok (fun q => match x0 q with Fin r => r | _ => 0 end).

Lemma toy_lmmcp : forall nan ls, exists o,
    pf_solve (toy (Some (toy_lb1, toy_ub1))) (PfSolvers nan ls stay) (toy_args false SLmmcp) = Ok o /\
    o_sol o 0%nat 1%nat = -1.
Proof.
  intros nan ls.
  rewrite (solve_constrained (toy (Some (toy_lb1, toy_ub1))) _ (toy_args false SLmmcp) toy_lb1 toy_ub1 eq_refl eq_refl).
  destruct (toy_start (Some (toy_lb1, toy_ub1)) false SLmmcp) as [eps E]. rewrite E. cbn [bind].
  unfold pf_guess. cbn [a_guess toy_args]. cbn [Nat.ltb Nat.leb pm_ns pm_nx toy Nat.add bind Nat.sub a_T toy_args].
  cbn [Nat.eqb negb].
  rewrite toy_bounds_accepted by (right; split; reflexivity). cbn [bind].
  unfold det_residual. cbn [Nat.eqb negb Nat.ltb Nat.leb bind]. cbn [a_solver].
  cbn [ps_lmmcp]. unfold stay. cbn [bind]. eexists. split; [reflexivity|]. reflexivity.
Qed.

(** C39, refuted: a solver that returns its starting point when this solves the system, started at a
    solution inside the bounds, does not return it, because it is started at the lower bound. *)
Lemma lmmcp_arguments_wrong : exists md sv a lbf ubf o,
    pm_bounds md = Some (lbf, ubf) /\ a_solver a = SLmmcp /\ a_guess a = Some (3%nat, 3%nat, toy_path) /\
    (forall F DF x lb ub, (forall q, F x q = 0) -> ps_lmmcp sv F DF (fun q => Fin (x q)) lb ub = Ok x) /\
    perfect_foresight 1 2 (pm_g md) (pm_f md) 1 (fun _ => 1 / 2) (fun _ _ => 0)
      (states_of 1 (fun t => toy_path (S t))) (controls_of 1 2 (fun t => toy_path (S t))) /\
    (forall t m s k, (t <= 1)%nat -> (k < 2)%nat ->
       ext_lt_l (lbf m s k) (controls_of 1 2 (fun t => toy_path (S t)) t k) /\
       ext_lt_r (controls_of 1 2 (fun t => toy_path (S t)) t k) (ubf m s k)) /\
    pf_solve md sv a = Ok o /\ o_sol o 0%nat 1%nat <> toy_path 1%nat 1%nat.
Proof.
  destruct (toy_lmmcp 0 (fun _ v => Ok v)) as (o & E & V).
  exists (toy (Some (toy_lb1, toy_ub1))), (PfSolvers 0 (fun _ v => Ok v) stay), (toy_args false SLmmcp),
    toy_lb1, toy_ub1, o.
  do 3 (split; [reflexivity|]). split; [intros; reflexivity|]. split; [|split].
  - split; [|split].
    + intros k Hk. destruct k; [reflexivity|lia].
    + intros t Ht. destruct t; [|lia]. split; intros k Hk; [destruct k; [|lia]|destruct k as [|[|k]]; [| |lia]].
      * cbv -[Rplus Rmult Ropp Rinv IZR Rminus Rdiv]. lra.
      * reflexivity.
      * reflexivity.
    + intros k Hk. destruct k as [|[|k]]; [reflexivity|reflexivity|lia].
  - intros t m s k Ht Hk. unfold controls_of. destruct t as [|[|t]]; [| |lia];
      destruct k as [|[|k]]; try lia; cbn; lra.
  - split; [exact E|]. rewrite V. cbn. lra.
Qed.

(** C90, refuted: the state of the first row is not the initial state given by the user. *)
Lemma initial_state_wrong : exists md sv a o s0,
    a_s0 a = Some s0 /\ a_exogenous a = SNone /\ pf_solve md sv a = Ok o /\ o_warned o = Some false /\
    s0 0%nat = 1 /\ o_sol o 0%nat 0%nat = 1 / 2.
Proof.
  destruct (toy_unconstrained None (PfSolvers 0 (fun _ v => Ok v) stay) SNcpsolve) as (o & E & W & _ & P).
  exists (toy None), (PfSolvers 0 (fun _ v => Ok v) stay), (toy_args true SNcpsolve), o, (fun _ => 1).
  repeat split; try assumption. rewrite P by lia. reflexivity.
Qed.

(** C92, refuted: a bound that moves with the state along the path, and no error. *)
Lemma varying_bound_accepted : exists md sv a lbf ubf o,
    pm_bounds md = Some (lbf, ubf) /\ a_ignore a = false /\
    pf_solve md sv a = Ok o /\ o_warned o = Some false /\ o_rows o = 2%nat /\
    exists r0 r1, lbf (o_eps o 0%nat) (states_of 1 (o_sol o) 0%nat) 1%nat = Fin r0 /\
                  lbf (o_eps o 1%nat) (states_of 1 (o_sol o) 1%nat) 1%nat = Fin r1 /\ r0 - r1 = 1 / 4.
Proof.
  destruct (toy_ncp toy_lb toy_ub (PfSolvers 0 (fun _ v => Ok v) stay)) as (o & E & W & O & P);
    [left; split; reflexivity|].
  exists (toy (Some (toy_lb, toy_ub))), (PfSolvers 0 (fun _ v => Ok v) stay), (toy_args false SNcpsolve), toy_lb, toy_ub, o.
  do 2 (split; [reflexivity|]). do 3 (split; [assumption|]).
  exists (1 / 2 - 10), (1 / 4 - 10). unfold toy_lb, states_of. cbn [Nat.eqb Nat.ltb Nat.leb].
  rewrite !P by lia. repeat split. lra.
Qed.

(** Non-vacuity of the answer theorems. *)
Lemma toy_constant_bounds : exists sv o,
    regular_bounds (toy (Some (toy_lb1, toy_ub1))) toy_lb1 toy_ub1 /\
    pf_solve (toy (Some (toy_lb1, toy_ub1))) sv (toy_args false SNcpsolve) = Ok o /\ o_warned o = Some false.
Proof.
  destruct (toy_ncp toy_lb1 toy_ub1 (PfSolvers 0 (fun _ v => Ok v) stay)) as (o & E & W & _ & _);
    [right; split; reflexivity|].
  exists (PfSolvers 0 (fun _ v => Ok v) stay), o. split; [|split; assumption].
  intros m s k Hk. split; [discriminate|]. split; [discriminate|].
  unfold toy_lb1, toy_ub1, lower_cut, upper_cut, ext_leb, ext_geb.
  destruct (Rle_dec (-1) (- BIG)); destruct (Rle_dec BIG 1); cbn; try exact I; lra.
Qed.

Lemma toy_derivatives :
    transition_derivatives 1 2 (pm_g (toy None)) (pm_g_s (toy None)) (pm_g_x (toy None)) /\
    arbitrage_derivatives 1 2 (pm_f (toy None)) (pm_f_s (toy None)) (pm_f_x (toy None)) (pm_f_S (toy None)) (pm_f_X (toy None)).
Proof.
  split.
  - intros m s x M ds dx k Hk. unfold row_times, moved. cbn.
    apply (lim_affine (s 0%nat / 2)). intros h. lra.
  - intros m s x M S X ds dx dS dX k Hk. unfold row_times, moved. cbn.
    destruct k as [|[|k]]; [| |lia]; cbn.
    + apply (lim_affine (x 0%nat)). intros h. lra.
    + apply (lim_affine (x 1%nat)). intros h. lra.
Qed.

(** A run that keeps the steady-state row. *)
Definition toy_kept_args : pf_args :=
  PfArgs (SArray [0; 0]) None None 1 10 (/ 1000) (Some (3%nat, 3%nat, fun _ _ => 0)) true SNcpsolve true.

Lemma toy_kept : forall sv, exists o,
    pf_solve (toy None) sv toy_kept_args = Ok o /\ o_warned o = Some false /\ kept toy_kept_args = 1%nat /\
    unconstrained (toy None) toy_kept_args.
Proof.
  intros sv. rewrite solve_unconstrained by (right; reflexivity).
  assert (E : exists eps sx, pf_start (pm_g (toy None)) (pm_names (toy None)) (pm_m (toy None)) (pm_s (toy None))
      (pm_x (toy None)) (pm_steady (toy None)) toy_kept_args = Ok (eps, sx, fun _ => 0 / 2)).
  { do 2 eexists. reflexivity. }
  destruct E as (eps & sx & E). rewrite E. cbn [bind].
  unfold pf_guess. cbn [a_guess toy_kept_args]. cbn [Nat.ltb Nat.leb pm_ns pm_nx toy Nat.add bind Nat.sub a_T].
  unfold det_residual. cbn [Nat.eqb negb Nat.ltb Nat.leb bind].
  rewrite newton_immediate.
  - cbn [bind]. eexists. split; [reflexivity|]. split; [reflexivity|]. split; [reflexivity|]. right. reflexivity.
  - cbn. lia.
  - unfold default_maxit. lia.
  - apply supnorm_zero_lt; [unfold default_tol; lra|]. intros q Hq. unfold ff. cbn [fst].
    do 6 (destruct q as [|q]; [cbv -[Rplus Rmult Ropp Rinv IZR Rminus Rdiv]; lra|]). cbn in Hq. lia.
Qed.

(** The default starting path is the straight line from the state after the shock to the calibration. *)
Lemma default_guess_line : forall n_s n_x cal_s cal_x a s1 N p,
    a_guess a = None -> (1 <= a_T a)%nat -> pf_guess n_s n_x cal_s cal_x a s1 = Ok (N, p) ->
    N = S (a_T a) /\
    forall t k, (t <= a_T a)%nat ->
      p t k = concat n_s s1 cal_x k + INR t / INR (a_T a) * (concat n_s cal_s cal_x k - concat n_s s1 cal_x k).
Proof.
  intros n_s n_x cal_s cal_x a s1 N p Hg HT H. unfold pf_guess in H. rewrite Hg in H. injection H as <- <-.
  split; [lia|]. intros t k Ht. unfold linspace.
  destruct (Nat.eqb_spec (a_T a + 1) 1) as [E|_]; [lia|].
  assert (0 < INR (a_T a)) by (apply lt_0_INR; lia).
  rewrite plus_INR. cbn [INR]. field. lra.
Qed.
