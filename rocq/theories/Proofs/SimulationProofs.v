(** Proofs about simulations.py. *)
From Coq Require Import String Reals List Arith ZArith Lia Lra Bool.
From Verif.Base Require Import Prelude Arrays.
From Verif.Model Require Import Discretization Grids Processes DecisionRule Simulation.
From Verif.Spec Require Import Simulation.
From Verif.Proofs Require Import TimeIterationProofs.
Import ListNotations.
Open Scope R_scope.

(* ------------------------------------------------------------------ *)
(** ** find_index *)

Lemma where_first_some : forall values v fuel i k,
    where_first values v fuel i = Some k ->
    (i <= k < i + fuel)%nat /\ row values k = v /\ forall j, (i <= j < k)%nat -> row values j <> v.
Proof.
  intros values v; induction fuel as [|fuel IH]; intros i k H; simpl in H; [discriminate|].
  destruct (row_eq_dec (row values i) v) as [E|E].
  - inversion H; subst. split; [lia|]. split; [reflexivity|]. intros; lia.
  - apply IH in H. destruct H as [H1 [H2 H3]]. split; [lia|]. split; [assumption|].
    intros j Hj. destruct (Nat.eq_dec j i); [subst; assumption|]. apply H3; lia.
Qed.

Lemma where_first_none : forall values v fuel i,
    where_first values v fuel i = None -> forall j, (i <= j < i + fuel)%nat -> row values j <> v.
Proof.
  intros values v; induction fuel as [|fuel IH]; intros i H j Hj; simpl in H; [lia|].
  destruct (row_eq_dec (row values i) v) as [E|E]; [discriminate|].
  destruct (Nat.eq_dec j i); [subst; assumption|]. apply (IH (S i) H j); lia.
Qed.

Lemma find_index_spec : forall N T sim values ind,
    find_index N T sim values = Ok ind ->
    forall n t, (n < N)%nat -> (t < T)%nat -> first_equal_row values (sim n t) (ind n t).
Proof.
  intros N T sim values ind H.
  assert (Q : forall n, (n < N)%nat -> forall t, (t < T)%nat -> first_equal_row values (sim n t) (ind n t)).
  2:{ intros; auto. }
  refine (for_range_res_inv (fun k ind => forall n, (n < k)%nat -> forall t, (t < T)%nat ->
            first_equal_row values (sim n t) (ind n t)) N _ _ ind _ _ H); [intros; lia|].
  clear. intros k x y Hk IH Hy.
  assert (Q : (forall n, (n < k)%nat -> forall t, (t < T)%nat -> first_equal_row values (sim n t) (y n t)) /\
              (forall t, (t < T)%nat -> first_equal_row values (sim k t) (y k t))).
  { refine (for_range_res_inv (fun l ind =>
        (forall n, (n < k)%nat -> forall t, (t < T)%nat -> first_equal_row values (sim n t) (ind n t)) /\
        (forall t, (t < l)%nat -> first_equal_row values (sim k t) (ind k t))) T _ _ y _ _ Hy).
    - split; [exact IH|]. intros; lia.
    - intros l u w Hl [H1 H2] Hw.
      destruct (where_first values (sim k l) (nrow values) 0) as [i|] eqn:E; [|discriminate].
      inversion Hw; subst w. apply where_first_some in E. destruct E as [E1 [E2 E3]].
      split; intros; [rewrite upd2_other by lia; auto|].
      destruct (Nat.eq_dec t l); [subst; rewrite upd2_same|rewrite upd2_other by lia; apply H2; lia].
      split; [lia|]. split; [assumption|]. intros; apply E3; lia. }
  destruct Q as [Q1 Q2]. intros n Hn t Ht.
  destruct (Nat.eq_dec n k); [subst; auto|apply Q1; lia].
Qed.

Lemma for_range_res_total : forall {A} n (body : nat -> A -> res A) s,
    (forall k x, (k < n)%nat -> exists y, body k x = Ok y) -> exists r, for_range_res n body s = Ok r.
Proof.
  intros A n body s H.
  destruct (for_range_res_ok (fun _ _ => True) n body s I) as [r [E _]]; [|eauto].
  intros k x Hk _. destruct (H k x Hk) as [y E]. eauto.
Qed.

Lemma find_index_ok : forall N T sim values,
    (exists ind, find_index N T sim values = Ok ind) <->
    (forall n t, (n < N)%nat -> (t < T)%nat -> exists i, (i < nrow values)%nat /\ row values i = sim n t).
Proof.
  intros N T sim values; split.
  - intros [ind H] n t Hn Ht. exists (ind n t).
    destruct (find_index_spec _ _ _ _ _ H n t Hn Ht) as [H1 [H2 _]]. auto.
  - intros H. unfold find_index.
    apply for_range_res_total. intros n x Hn. apply for_range_res_total. intros t y Ht.
    destruct (where_first values (sim n t) (nrow values) 0) eqn:E; [eexists; reflexivity|].
    exfalso. destruct (H n t Hn Ht) as [i [Hi Hr]]. apply (where_first_none _ _ _ _ E i); auto; lia.
Qed.

Lemma find_index_error : forall N T sim values e, find_index N T sim values = Err e -> e = ExcIndex.
Proof.
  assert (Q : forall {A} n (body : nat -> A -> res A) s e,
             (forall k x e, body k x = Err e -> e = ExcIndex) -> for_range_res n body s = Err e -> e = ExcIndex).
  { intros A n body s e Hb. revert e. induction n as [|n IH]; intros e; simpl; [discriminate|].
    destruct (for_range_res n body s) eqn:E; cbn [bind]; intros H; [eapply Hb; eassumption|].
    apply IH. assumption. }
  intros N T sim values e H. unfold find_index in H. refine (Q _ _ _ _ _ _ H). clear H.
  intros k x e' H. refine (Q _ _ _ _ _ _ H). clear H. intros l y e'' H.
  destruct (where_first values (sim k l) (nrow values) 0); [discriminate|]. now inversion H.
Qed.

(* ------------------------------------------------------------------ *)
(** ** simulate *)

Lemma rows_res_spec : forall N f x, rows_res N f = Ok x -> forall n, (n < N)%nat -> f n = Ok (x n).
Proof.
  intros N f x H.
  refine (for_range_res_inv (fun k (x : nat -> list R) => forall n, (n < k)%nat -> f n = Ok (x n)) N _ _ x _ _ H);
    [intros; lia|].
  intros k u w Hk IH Hw n Hn. destruct (f k) as [v|e] eqn:E; [|discriminate]. cbn [bind] in Hw.
  inversion Hw; subst. destruct (Nat.eq_dec n k); [subst; now rewrite upd_same|].
  rewrite upd_other by assumption. apply IH; lia.
Qed.

Lemma rows_res_ok : forall N f, (forall n, (n < N)%nat -> exists v, f n = Ok v) -> exists x, rows_res N f = Ok x.
Proof.
  intros N f H. apply for_range_res_total. intros k x Hk. destruct (H k Hk) as [v E]. rewrite E.
  eexists; reflexivity.
Qed.

Definition prev (p : prepared) (t n : nat) : list R := match t with O => pr_before p n | S t' => pr_m p t' n end.

Lemma sim_loop : forall md dr N T p s0 s x mp, (1 <= T)%nat ->
    for_range_res T (sim_body md dr N T p)
      ((fun t n => match t with O => s0 | S _ => [] end), (fun _ _ => []), pr_before p) = Ok (s, x, mp) ->
    (T <= pr_T p)%nat /\ starts_at s0 N s /\ rule_followed dr T N (pr_i p) (pr_m p) s x /\
    lagged_law (sm_g md) T N (pr_before p) (pr_m p) s x.
Proof.
  intros md dr N T p s0 s x mp HT H.
  set (P := fun (k : nat) (st : path * path * (nat -> list R)) =>
     let '(s, x, mp) := st in
     (k <= pr_T p)%nat /\ starts_at s0 N s /\ rule_followed dr k N (pr_i p) (pr_m p) s x /\
     (forall t n, (t < k)%nat -> (S t < T)%nat -> (n < N)%nat ->
        s (S t) n = sm_g md (prev p t n) (s t n) (x t n) (pr_m p t n)) /\
     (forall n, mp n = prev p k n)).
  assert (Q : P T (s, x, mp)).
  { refine (for_range_res_inv P T _ _ _ _ _ H).
    - split; [lia|]. split; [intros n _; reflexivity|]. split; [intros t n Ht; lia|].
      split; [intros; lia|]. reflexivity.
    - clear. intros k [[s x] mp] [[s' x'] mp'] Hk (H0 & H1 & H2 & H3 & H4) E. unfold sim_body in E.
      destruct (Nat.ltb_spec k (pr_T p)) as [L|L]; [|discriminate].
      match type of E with bind ?a _ = _ => destruct a as [xi|e] eqn:EX; [|discriminate] end.
      cbn [bind] in E. injection E as Es Ex Em. subst x' mp'. symmetry in Es.
      assert (EXn : forall n, (n < N)%nat ->
         match pr_i p with
         | Some i => ru_is dr (Some (i k n)) (s k n)
         | None => ru_ms dr (pr_m p k n) (s k n)
         end = Ok (xi n)).
      { destruct (pr_i p) as [ii|].
        - destruct (Nat.eqb N 0); [discriminate|]. apply (rows_res_spec _ _ _ EX).
        - apply (rows_res_spec _ _ _ EX). }
      set (ss := fun n => sm_g md (mp n) (s k n) (xi n) (pr_m p k n)) in *.
      assert (Same : forall t, (t <= k)%nat -> s' t = s t).
      { intros t Ht. rewrite Es. destruct (Nat.ltb k (T - 1)); [apply upd_other; lia|reflexivity]. }
      split; [lia|]. split; [|split; [|split]].
      + intros n Hn. rewrite Same by lia. apply H1; assumption.
      + intros t n Ht Hn. rewrite Same by lia. destruct (Nat.eq_dec t k).
        * subst t. rewrite upd_same. apply EXn; assumption.
        * rewrite upd_other by assumption. apply H2; [lia|assumption].
      + intros t n Ht HtT Hn. rewrite (Same t) by lia. destruct (Nat.eq_dec t k).
        * subst t. rewrite upd_same. rewrite Es. destruct (Nat.ltb_spec k (T - 1)); [|lia].
          replace (k + 1)%nat with (S k) by lia. rewrite upd_same. unfold ss. rewrite H4. reflexivity.
        * rewrite upd_other by assumption. rewrite (Same (S t)) by lia. apply H3; [lia|assumption|assumption].
      + reflexivity. }
  destruct Q as (Q0 & Q1 & Q2 & Q3 & _). split; [assumption|]. split; [assumption|]. split; [assumption|].
  intros t n Ht Hn. rewrite Q3 by (assumption || lia). reflexivity.
Qed.

Lemma sim_table_reported : forall md N T p s x out,
    sim_table md N T p s x = Ok out ->
    so_T out = T /\ so_N out = N /\ reported md out (pr_i p) (pr_m p) s x.
Proof.
  intros md N T p s x out H. unfold sim_table in H. unfold reported.
  destruct (sm_aux md) as [aux|]; [destruct (Nat.eqb (pr_T p) T); [|discriminate]|];
    cbn [bind fst snd] in H; destruct (pr_i p) as [ii|];
    repeat match type of H with (if ?b then _ else _) = _ => destruct b; [|discriminate] end;
    inversion H; subst; cbn; (split; [reflexivity|]); (split; [reflexivity|]);
    (split; [|intros; rewrite ?app_nil_r; reflexivity]); rewrite ?app_nil_r; reflexivity.
Qed.

Section Sim.
  Variable rng : Type.
  Variable seeded : Z -> rng.
  Variable rand : rng -> nat -> R.
  Variable skip : rng -> nat -> rng.
  Variable md : sim_model.
  Variable dr : rule.
  Variable dflt : sim_process rng.

  Lemma prepare_source : forall a s0 r p r',
      prepare rng rand skip md dr dflt a s0 r = (Ok p, r') -> (sa_T a <= pr_T p)%nat ->
      exogenous_source rand skip md dr dflt a r (pr_i p) (pr_m p) (pr_before p).
  Proof.
    intros a s0 r p r' H HT. unfold prepare in H. unfold exogenous_source.
    destruct (sa_driving a) as [|T m|T i|].
    - destruct (orelse (sa_process a) dflt) as [c|simul].
      + destruct (chain_simulate rng rand skip c (sa_N a) (sa_T a) (orelse (sa_i0 a) 0%nat) (sa_stochastic a) r)
          as [mr r1]. cbv zeta. cbn [fst].
        destruct mr as [m|e]; cbn [bind] in H; [|inversion H].
        destruct (find_index (sa_T a) (sa_N a) m (fst c)) as [i|e] eqn:EI; cbn [bind] in H; [|inversion H].
        destruct (Nat.ltb (orelse (sa_i0 a) 0%nat) (nrow (fst c))); [|inversion H].
        destruct (ru_is dr (Some (orelse (sa_i0 a) 0%nat)) s0); cbn [bind] in H; inversion H; subst. cbn.
        split; [reflexivity|]. split; [|reflexivity]. exists i. split; [reflexivity|].
        intros t n Ht Hn. destruct (find_index_spec _ _ _ _ _ EI t n Ht Hn) as [A [B _]]. auto.
      + destruct (simul (sa_N a) (sa_T a) (sa_m0 a) (sa_stochastic a) r) as [mr r1]. cbn [fst].
        destruct mr as [m|e]; cbn [bind] in H; [|inversion H].
        destruct (ru_ms dr (orelse (sa_m0 a) (sm_m md)) s0); cbn [bind] in H; inversion H; subst. cbn. auto.
    - destruct (ru_ms dr (orelse (sa_m0 a) (sm_m md)) s0); cbn [bind] in H; [|inversion H].
      destruct (Nat.eqb_spec T 0); inversion H; subst. cbn in *. auto.
    - destruct (ru_nodes dr) as [nodes|e]; cbn [bind] in H; [|inversion H].
      destruct (forallb _ _); [|inversion H].
      destruct (ru_is dr (sa_i0 a) s0); cbn [bind] in H; [|inversion H].
      destruct (Nat.eqb_spec T 0); inversion H; subst. cbn in *.
      split; [assumption|]. split; [reflexivity|]. exists nodes. auto.
    - inversion H.
  Qed.

  Lemma simulate_spec : forall a r out r',
      simulate seeded rand skip md dr dflt a r = (Ok out, r') ->
      so_T out = sa_T a /\ so_N out = sa_N a /\
      exists ii m before s x,
        exogenous_source rand skip md dr dflt a r ii m before /\
        reported md out ii m s x /\
        starts_at (orelse (sa_s0 a) (sm_s md)) (sa_N a) s /\
        rule_followed dr (sa_T a) (sa_N a) ii m s x /\
        lagged_law (sm_g md) (sa_T a) (sa_N a) before m s x.
  Proof.
    intros a r out r' H. unfold simulate in H.
    destruct (Nat.eqb_spec (sa_T a) 0) as [|HT]; [inversion H|].
    destruct (prepare rng rand skip md dr dflt a (orelse (sa_s0 a) (sm_s md)) r) as [[p|e] r1] eqn:EP; [|inversion H].
    match type of H with (bind ?b _, _) = _ => destruct b as [[[s x] mp]|e] eqn:EL end; cbn [bind] in H; [|inversion H].
    injection H as H1 H2. apply sim_table_reported in H1. destruct H1 as (A & B & C).
    apply sim_loop in EL; [|lia]. destruct EL as (L0 & L1 & L2 & L3).
    split; [assumption|]. split; [assumption|].
    exists (pr_i p), (pr_m p), (pr_before p), s, x.
    split; [apply (prepare_source _ _ _ _ _ EP L0)|]. auto.
  Qed.

  (** T = 0. *)
  Lemma simulate_no_date : forall a r, sa_T a = 0%nat -> is_err (fst (simulate seeded rand skip md dr dflt a r)).
  Proof. intros a r H. unfold simulate. rewrite H. cbn. eexists; reflexivity. Qed.

  (** The generator left by a call that returned. *)
  Lemma simulate_rng : forall a r out r',
      simulate seeded rand skip md dr dflt a r = (Ok out, r') -> r' = seeded (sa_seed a).
  Proof.
    intros a r out r' H. unfold simulate in H. destruct (Nat.eqb (sa_T a) 0); [inversion H|].
    destruct (prepare _ _ _ _ _ _ _ _ _) as [[p|e] r1]; inversion H; reflexivity.
  Qed.

  (** A path that does not move. *)
  Lemma constant_law : forall T N m mbar before s x,
      (forall t n, (t < T)%nat -> (n < N)%nat -> m t n = mbar) -> (forall n, before n = mbar) ->
      lagged_law (sm_g md) T N before m s x -> law_of_motion (sm_g md) T N m s x.
  Proof.
    intros T N m mbar before s x Hm Hb H t n Ht Hn. rewrite (H t n Ht Hn), (Hm t n), (Hm (S t) n) by lia.
    f_equal. destruct t; [apply Hb|apply Hm; lia].
  Qed.
End Sim.

Section Sim2.
  Variable rng : Type.
  Variable seeded : Z -> rng.
  Variable rand : rng -> nat -> R.
  Variable skip : rng -> nat -> rng.
  Variable md : sim_model.
  Variable dr : rule.
  Variable dflt : sim_process rng.

  Lemma sim_loop_ok : forall N T p s0,
      (T <= pr_T p)%nat -> (pr_i p = None \/ (1 <= N)%nat) ->
      (forall t n s, (t < T)%nat -> (n < N)%nat ->
         exists x, match pr_i p with Some i => ru_is dr (Some (i t n)) s | None => ru_ms dr (pr_m p t n) s end = Ok x) ->
      exists st, for_range_res T (sim_body md dr N T p)
        ((fun t n => match t with O => s0 | S _ => [] end), (fun _ _ => []), pr_before p) = Ok st.
  Proof.
    intros N T p s0 HT HN H. apply for_range_res_total. intros k [[s x] mp] Hk. unfold sim_body.
    destruct (Nat.ltb_spec k (pr_T p)); [|lia].
    destruct (pr_i p) as [ii|].
    - destruct HN as [HN|HN]; [discriminate|]. destruct (Nat.eqb_spec N 0); [lia|].
      destruct (rows_res_ok N (fun n => ru_is dr (Some (ii k n)) (s k n))) as [xi E]; [auto|].
      rewrite E. eexists; reflexivity.
    - destruct (rows_res_ok N (fun n => ru_ms dr (pr_m p k n) (s k n))) as [xi E]; [auto|].
      rewrite E. eexists; reflexivity.
  Qed.

  Lemma sim_table_ok : forall N T p s x, pr_T p = T -> exists out, sim_table md N T p s x = Ok out.
  Proof.
    intros N T p s x H. unfold sim_table. rewrite H, Nat.eqb_refl.
    destruct (sm_aux md); cbn [bind]; destruct (pr_i p); eexists; reflexivity.
  Qed.

  Lemma simulate_path_ok : forall a p r,
      sa_driving a = DPath (sa_T a) p -> (1 <= sa_T a)%nat -> (forall m s, exists x, ru_ms dr m s = Ok x) ->
      exists out, simulate seeded rand skip md dr dflt a r = (Ok out, seeded (sa_seed a)).
  Proof.
    intros a p r Hd HT H. unfold simulate. destruct (Nat.eqb_spec (sa_T a) 0) as [E0|_]; [lia|].
    unfold prepare. rewrite Hd. destruct (H (orelse (sa_m0 a) (sm_m md)) (orelse (sa_s0 a) (sm_s md))) as [x0 E].
    rewrite E. cbn [bind]. destruct (Nat.eqb_spec (sa_T a) 0) as [E0|_]; [lia|].
    cbv iota beta.
    destruct (sim_loop_ok (sa_N a) (sa_T a) (Prepared (sa_T a) p None (p 0%nat)) (orelse (sa_s0 a) (sm_s md)))
      as [[[s x] mp] EL]; [cbn; lia|left; reflexivity|intros; apply H|].
    cbn [pr_before] in *. rewrite EL. cbn [bind].
    destruct (sim_table_ok (sa_N a) (sa_T a) (Prepared (sa_T a) p None (p 0%nat)) s x eq_refl) as [out EO].
    rewrite EO. eexists; reflexivity.
  Qed.

  (** Given an exogenous path, the generator does not matter. *)
  Lemma simulate_driven_rng : forall a r r', sa_driving a <> DNone ->
      fst (simulate seeded rand skip md dr dflt a r) = fst (simulate seeded rand skip md dr dflt a r').
  Proof.
    intros a r r' H. unfold simulate. destruct (Nat.eqb (sa_T a) 0); [reflexivity|].
    unfold prepare. destruct (sa_driving a); [contradiction| | |reflexivity];
    match goal with |- context[match ?b with Ok _ => _ | Err _ => _ end] => destruct b; reflexivity end.
  Qed.

  (** A rest point of the model with constant exogenous values. *)
  Lemma rest_path : forall T N ii m before s x mbar sbar xbar,
      starts_at sbar N s -> rule_followed dr T N ii m s x -> lagged_law (sm_g md) T N before m s x ->
      (forall t n, (t < T)%nat -> (n < N)%nat -> m t n = mbar /\
         match ii with Some i => ru_is dr (Some (i t n)) sbar | None => ru_ms dr mbar sbar end = Ok xbar) ->
      (forall n, (n < N)%nat -> before n = mbar) -> sm_g md mbar sbar xbar mbar = sbar ->
      forall t n, (t < T)%nat -> (n < N)%nat -> s t n = sbar /\ x t n = xbar.
  Proof.
    intros T N ii m before s x mbar sbar xbar S0 RF LL Hm Hb Hg.
    assert (Q : forall t n, (t < T)%nat -> (n < N)%nat -> s t n = sbar -> x t n = xbar).
    { intros t n Ht Hn E. specialize (RF t n Ht Hn). destruct (Hm t n Ht Hn) as [Em Er].
      rewrite E in RF. destruct ii; [|rewrite Em in RF]; rewrite Er in RF; inversion RF; reflexivity. }
    intros t n Ht Hn. induction t as [|t IH].
    - split; [apply S0; assumption|]. apply Q; [assumption..|]. apply S0; assumption.
    - destruct IH as [A B]; [lia|]. 
      assert (E : s (S t) n = sbar).
      { rewrite (LL t n Ht Hn), A, B, (proj1 (Hm t n ltac:(lia) Hn)).
        replace (match t with O => before n | S t' => m t' n end) with mbar; [assumption|].
        destruct t; [symmetry; auto|]. symmetry. apply Hm; [lia|assumption]. }
      split; [assumption|]. apply Q; assumption.
  Qed.

  Lemma reported_ext : forall out ii m s x m' s' x',
      (forall t n, (t < so_T out)%nat -> (n < so_N out)%nat -> m t n = m' t n /\ s t n = s' t n /\ x t n = x' t n) ->
      reported md out ii m s x -> reported md out ii m' s' x'.
  Proof.
    intros out ii m s x m' s' x' H [A B]. split; [assumption|]. intros t n Ht Hn. rewrite (B t n Ht Hn).
    destruct (H t n Ht Hn) as [E1 [E2 E3]]. rewrite E1, E2, E3. reflexivity.
  Qed.

  Lemma rest_driven : forall a T mbar sbar xbar r out r',
      sa_driving a = DPath T (fun _ _ => mbar) -> orelse (sa_s0 a) (sm_s md) = sbar ->
      ru_ms dr mbar sbar = Ok xbar -> sm_g md mbar sbar xbar mbar = sbar ->
      simulate seeded rand skip md dr dflt a r = (Ok out, r') ->
      reported md out None (fun _ _ => mbar) (fun _ _ => sbar) (fun _ _ => xbar).
  Proof.
    intros a T mbar sbar xbar r out r' Hd Hs Hr Hg H.
    destruct (simulate_spec _ _ _ _ _ _ _ _ _ _ _ H) as (ET & EN & ii & m & before & s & x & Src & Rep & St & RF & LL).
    unfold exogenous_source in Src. rewrite Hd in Src. destruct Src as (_ & Eii & Em & Eb). subst ii.
    refine (reported_ext _ _ _ _ _ _ _ _ _ Rep). rewrite ET, EN. intros t n Ht Hn.
    split; [apply Em|]. rewrite Hs in St.
    apply (rest_path _ _ _ _ _ _ _ mbar sbar xbar St RF LL); auto.
  Qed.

  Lemma mc_constant : forall c N T i0 rnd m, mc_simulate c N T i0 false rnd = Ok m ->
      forall t n, m t n = row (fst c) i0.
  Proof.
    intros c N T i0 rnd m H. unfold mc_simulate in H. cbn [bind] in H. destruct (forallb _ _); inversion H. reflexivity.
  Qed.

  Lemma rest_chain : forall a c sbar xbar r out r',
      sa_driving a = DNone -> orelse (sa_process a) dflt = SChain c -> sa_stochastic a = false ->
      distinct_rows (fst c) ->
      orelse (sa_s0 a) (sm_s md) = sbar ->
      let i0 := orelse (sa_i0 a) 0%nat in
      let mbar := row (fst c) i0 in
      ru_is dr (Some i0) sbar = Ok xbar -> sm_g md mbar sbar xbar mbar = sbar ->
      simulate seeded rand skip md dr dflt a r = (Ok out, r') ->
      reported md out (Some (fun _ _ => i0)) (fun _ _ => mbar) (fun _ _ => sbar) (fun _ _ => xbar).
  Proof.
    intros a c sbar xbar r out r' Hd Hc Hst Hdis Hs i0 mbar Hr Hg H.
    assert (Hi0 : (sa_N a = 0 \/ i0 < nrow (fst c))%nat).
    { unfold simulate in H. destruct (Nat.eqb_spec (sa_T a) 0) as [|HT]; [inversion H|].
      unfold prepare in H. rewrite Hd, Hc, Hst in H. unfold chain_simulate in H.
      destruct (mc_simulate c (sa_N a) (sa_T a) (orelse (sa_i0 a) 0%nat) false (rand r)); cbn [bind] in H; [|inversion H].
      destruct (find_index _ _ _ _); cbn [bind] in H; [|inversion H].
      destruct (Nat.ltb_spec (orelse (sa_i0 a) 0%nat) (nrow (fst c))); [right; assumption|inversion H]. }
    destruct (simulate_spec _ _ _ _ _ _ _ _ _ _ _ H) as (ET & EN & ii & m & before & s & x & Src & Rep & St & RF & LL).
    unfold exogenous_source in Src. rewrite Hd, Hc in Src. cbv zeta in Src.
    destruct Src as (Em & (i & Eii & Hi) & Eb). unfold chain_simulate in Em. cbn [fst] in Em. rewrite Hst in Em.
    pose proof (mc_constant _ _ _ _ _ _ Em) as Cm.
    assert (Ei : forall t n, (t < sa_T a)%nat -> (n < sa_N a)%nat -> i t n = i0).
    { intros t n Ht Hn. destruct (Hi t n Ht Hn) as [A B]. apply Hdis; [assumption|destruct Hi0; [lia|assumption]|].
      rewrite B. apply Cm. }
    subst ii. rewrite Hs in St.
    assert (Q : forall t n, (t < sa_T a)%nat -> (n < sa_N a)%nat -> s t n = sbar /\ x t n = xbar).
    { apply (rest_path _ _ _ _ _ _ _ mbar sbar xbar St RF LL); [|intros; apply Eb|assumption].
      intros t n Ht Hn. rewrite (Ei t n Ht Hn). split; [apply Cm|assumption]. }
    destruct Rep as [R1 R2]. split; [exact R1|]. intros t n Ht Hn. rewrite (R2 t n Ht Hn).
    rewrite ET in Ht. rewrite EN in Hn. destruct (Q t n Ht Hn) as [Q1 Q2]. rewrite Q1, Q2, Ei by assumption.
    rewrite Cm. reflexivity.
  Qed.

  (** The reported index. *)
  Lemma index_reported : forall a c r out r',
      sa_driving a = DNone -> orelse (sa_process a) dflt = SChain c -> distinct_rows (fst c) ->
      simulate seeded rand skip md dr dflt a r = (Ok out, r') ->
      let i0 := orelse (sa_i0 a) 0%nat in
      exists inds,
        (if sa_stochastic a
         then simulate_markov_chain (fst c) (snd c) (sa_N a) (sa_T a) (fun _ => i0) false (rand r) = Ok inds
         else inds = fun _ _ => i0) /\
        forall t n, (t < sa_T a)%nat -> (n < sa_N a)%nat ->
          value_of (so_names out) (so_row out t n) "_i_m" = Some (INR (inds t n)).
  Proof.
    intros a c r out r' Hd Hc Hdis H i0.
    destruct (simulate_spec _ _ _ _ _ _ _ _ _ _ _ H) as (ET & EN & ii & m & before & s & x & Src & Rep & St & RF & LL).
    unfold exogenous_source in Src. rewrite Hd, Hc in Src. cbv zeta in Src.
    destruct Src as (Em & (i & Eii & Hi) & Eb). unfold chain_simulate in Em. cbn [fst] in Em.
    fold i0 in Em. unfold mc_simulate in Em.
    assert (Q : exists inds,
      (if sa_stochastic a then simulate_markov_chain (fst c) (snd c) (sa_N a) (sa_T a) (fun _ => i0) false (rand r)
       else Ok (fun _ _ => i0)) = Ok inds /\
      (forall t n, (t < sa_T a)%nat -> (n < sa_N a)%nat -> (inds t n < nrow (fst c))%nat) /\
      forall t n, m t n = row (fst c) (inds t n)).
    { destruct (if sa_stochastic a then _ else _) as [inds|e]; cbn [bind] in Em; [|discriminate].
      destruct (forallb _ _) eqn:F; [|discriminate]. injection Em as Em. exists inds. split; [reflexivity|].
      split; [|intros; rewrite <- Em; reflexivity].
      intros t n Ht Hn. rewrite forallb_forall in F.
      assert (It : In t (seq 0 (sa_T a))) by (apply in_seq; lia).
      specialize (F t It). rewrite forallb_forall in F.
      assert (In_n : In n (seq 0 (sa_N a))) by (apply in_seq; lia).
      specialize (F n In_n). apply Nat.ltb_lt in F. assumption. }
    destruct Q as (inds & Q1 & Q2 & Q3). exists inds. split.
    - destruct (sa_stochastic a); [assumption|]. injection Q1 as Q1. symmetry; assumption.
    - intros t n Ht Hn. destruct Rep as [R1 R2]. rewrite R1, R2 by (rewrite ?ET, ?EN; assumption).
      subst ii. cbn. destruct (Hi t n Ht Hn) as [A B]. do 2 f_equal. apply Hdis; auto. rewrite B. apply Q3.
  Qed.
End Sim2.
