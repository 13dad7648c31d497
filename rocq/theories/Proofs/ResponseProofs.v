From Coq Require Import String Reals List Arith ZArith Lia Lra.
From Verif.Base Require Import Prelude Arrays.
From Verif.Spec Require Import Simulation Response.
From Verif.Model Require Import Grids Discretization Distributions Processes Simulation Response.
From Verif.Proofs Require Import SimulationFinal.
Import ListNotations.
Open Scope R_scope.

Lemma name_index_listed : forall name l i, listed_at name l i -> name_index name l = Ok i.
Proof.
  intros name l. induction l as [|w l IH]; intros i [H1 H2].
  - destruct i; discriminate H1.
  - cbn [name_index]. destruct (String.eqb_spec name w) as [E|E].
    + destruct i as [|i]; [reflexivity|]. exfalso. apply (H2 0%nat); [lia|]. cbn. congruence.
    + destruct i as [|i].
      * cbn in H1. congruence.
      * rewrite (IH i); [reflexivity|]. split; [exact H1|].
        intros j Hj. apply (H2 (S j)). lia.
Qed.

Lemma name_index_missing : forall name l, ~ In name l -> name_index name l = Err ExcValue.
Proof.
  intros name l. induction l as [|w l IH]; intros H; [reflexivity|]. cbn [name_index].
  destruct (String.eqb_spec name w) as [E|E]; [exfalso; apply H; left; congruence|].
  rewrite IH; [reflexivity|]. intro K. apply H. right. exact K.
Qed.

Lemma np_sqrt_pos : forall x, 0 <= x -> np_sqrt x = Ok (sqrt x).
Proof. intros x H. unfold np_sqrt. destruct (Rlt_dec x 0); [lra|reflexivity]. Qed.

Lemma default_Sigma : forall law Sg i,
    attr_Sigma law = Ok Sg -> (i < nrow Sg)%nat -> (i < ncol Sg)%nat -> 0 <= mget Sg i i ->
    default_impulse law i = Ok (sqrt (mget Sg i i)).
Proof.
  intros law Sg i E H1 H2 H3. unfold default_impulse. rewrite E. cbn [bind]. unfold diagonal_entry.
  destruct (Nat.ltb_spec i (nrow Sg)); [|lia]. destruct (Nat.ltb_spec i (ncol Sg)); [|lia]. cbn [andb].
  apply np_sqrt_pos. exact H3.
Qed.

Section R.
  Context (rng : Type) (seeded : Z -> rng) (rand : rng -> nat -> R) (skip : rng -> nat -> rng).
  Variables (md : sim_model) (dr : rule) (dflt : sim_process rng).

  Let call := response_call seeded rand skip md dr dflt.

  Lemma call_default : forall law name i T seed r v,
      listed_at name (sm_exogenous md) i -> default_impulse law i = Ok v ->
      call law name T None seed r = call law name T (Some v) seed r.
  Proof.
    intros law name i T seed r v H E. unfold call, response_call. rewrite (name_index_listed _ _ _ H).
    rewrite E. reflexivity.
  Qed.

  Lemma call_given : forall law name i T seed r v out r',
      listed_at name (sm_exogenous md) i -> kind_of law = Some KIid ->
      call law name T (Some v) seed r = (Ok out, r') ->
      so_T out = T /\ so_N out = 1%nat /\ exists s x,
        reported md out None (impulse_path md i v) s x /\
        starts_at (sm_s md) 1 s /\
        rule_followed dr T 1 None (impulse_path md i v) s x /\
        lagged_law (sm_g md) T 1 (impulse_path md i v 0%nat) (impulse_path md i v) s x.
  Proof.
    intros law name i T seed r v out r' H K E. unfold call, response_call in E.
    rewrite (name_index_listed _ _ _ H), K in E. exact (response_spec _ _ _ _ _ _ _ _ _ _ _ _ _ _ E).
  Qed.

  Lemma call_ok : forall law name i T seed r v,
      listed_at name (sm_exogenous md) i -> kind_of law = Some KIid -> (2 <= T)%nat ->
      (forall m s, exists x, ru_ms dr m s = Ok x) ->
      exists out r', call law name T (Some v) seed r = (Ok out, r').
  Proof.
    intros law name i T seed r v H K HT Hx. unfold call, response_call.
    rewrite (name_index_listed _ _ _ H), K. apply response_ok; assumption.
  Qed.

  Lemma normal_default : forall self name i T seed r,
      listed_at name (sm_exogenous md) i -> (i < nrow (nm_Sigma self))%nat -> (i < ncol (nm_Sigma self))%nat ->
      0 <= mget (nm_Sigma self) i i ->
      exists v, one_deviation (LNormal self) i v /\
        call (LNormal self) name T None seed r = call (LNormal self) name T (Some v) seed r.
  Proof.
    intros self name i T seed r H H1 H2 H3. exists (sqrt (mget (nm_Sigma self) i i)). split.
    - split; [apply sqrt_pos|]. cbn [shock_variance]. rewrite sqrt_sqrt by assumption. reflexivity.
    - apply (call_default _ _ i); [assumption|]. apply default_Sigma; auto.
  Qed.

  Lemma sqrt_not_self : forall s, 0 < s -> s <> 1 -> sqrt s <> s.
  Proof.
    intros s H H1 E. apply H1. assert (A : sqrt s * sqrt s = s) by (apply sqrt_sqrt; lra).
    rewrite E in A. nra.
  Qed.

  Lemma unormal_default : forall sigma mu name i T seed r,
      listed_at name (sm_exogenous md) i -> 0 < sigma -> sigma <> 1 ->
      exists v, call (LUNormal sigma mu) name T None seed r = call (LUNormal sigma mu) name T (Some v) seed r /\
        v * v = sigma /\ ~ one_deviation (LUNormal sigma mu) i v /\
        forall w, one_deviation (LUNormal sigma mu) i w -> w = sigma.
  Proof.
    intros sigma mu name i T seed r H Hs H1. exists (sqrt sigma). split; [|split; [|split]].
    - apply (call_default _ _ i); [assumption|]. unfold default_impulse. cbn [attr_Sigma attr_sigma bind].
      apply np_sqrt_pos. lra.
    - apply sqrt_sqrt; lra.
    - intros [_ K]. cbn [shock_variance] in K. rewrite sqrt_sqrt in K by lra. inversion K. apply H1. nra.
    - intros w [W K]. cbn [shock_variance] in K. inversion K. nra.
  Qed.

  (** The reported tables differ. *)
  Lemma unormal_differs : forall sigma mu name i T seed r out1 r1 out2 r2,
      listed_at name (sm_exogenous md) i -> 0 < sigma -> sigma <> 1 -> (2 <= T)%nat -> sm_aux md <> None ->
      call (LUNormal sigma mu) name T None seed r = (Ok out1, r1) ->
      call (LUNormal sigma mu) name T (Some sigma) seed r = (Ok out2, r2) ->
      nth i (so_row out1 1%nat 0%nat) 0 = sqrt sigma /\ nth i (so_row out2 1%nat 0%nat) 0 = sigma /\
      so_row out1 1%nat 0%nat <> so_row out2 1%nat 0%nat.
  Proof.
    intros sigma mu name i T seed r out1 r1 out2 r2 H Hs H1 HT Ha E1 E2.
    assert (D : default_impulse (LUNormal sigma mu) i = Ok (sqrt sigma)).
    { unfold default_impulse. cbn [attr_Sigma attr_sigma bind]. apply np_sqrt_pos. lra. }
    rewrite (call_default _ _ i _ _ _ _ H D) in E1.
    assert (Hi : (i < length (sm_exogenous md))%nat).
    { apply nth_error_Some. destruct H as [H _]. rewrite H. discriminate. }
    assert (G : forall v out r', call (LUNormal sigma mu) name T (Some v) seed r = (Ok out, r') ->
                nth i (so_row out 1%nat 0%nat) 0 = v).
    { intros v out r' E. destruct (call_given (LUNormal sigma mu) _ i _ _ _ _ _ _ H eq_refl E) as (A & B & s & x & (_ & Rep) & _).
      rewrite (Rep 1%nat 0%nat) by lia. destruct (sm_aux md) as [aux|]; [|congruence].
      cbn [app]. rewrite app_nth1 by (unfold impulse_path; rewrite map_length, seq_length; exact Hi).
      unfold impulse_path. cbn [Nat.eqb].
      set (f := fun j : nat => if Nat.eqb j i then v else 0).
      rewrite (nth_indep _ 0 (f 0%nat)) by (rewrite map_length, seq_length; exact Hi).
      rewrite map_nth, seq_nth by exact Hi. cbn [Nat.add]. unfold f. rewrite Nat.eqb_refl. reflexivity. }
    pose proof (G _ _ _ E1) as G1. pose proof (G _ _ _ E2) as G2. repeat split; try assumption.
    intro K. apply (sqrt_not_self sigma Hs H1). rewrite <- G1, <- G2, K. reflexivity.
  Qed.

  Lemma lognormal_default : forall sigma mu name i T seed r,
      listed_at name (sm_exogenous md) i -> 0 < sigma ->
      exists v, call (LLogNormal sigma mu) name T None seed r = call (LLogNormal sigma mu) name T (Some v) seed r /\
        v * v = sigma.
  Proof.
    intros sigma mu name i T seed r H Hs. exists (sqrt sigma). split; [|apply sqrt_sqrt; lra].
    apply (call_default _ _ i); [assumption|]. unfold default_impulse. cbn [attr_Sigma attr_sigma bind].
    apply np_sqrt_pos. lra.
  Qed.

  Lemma no_default : forall law name i T seed r,
      listed_at name (sm_exogenous md) i -> law = LOther \/ law = LNoResponse ->
      call law name T None seed r = (Err ExcAttribute, r).
  Proof.
    intros law name i T seed r H [E|E]; subst law; unfold call, response_call;
      rewrite (name_index_listed _ _ _ H); reflexivity.
  Qed.

  Lemma unknown_name : forall law name T impulse seed r,
      ~ In name (sm_exogenous md) -> call law name T impulse seed r = (Err ExcValue, r).
  Proof.
    intros law name T impulse seed r H. unfold call, response_call. rewrite name_index_missing by exact H.
    reflexivity.
  Qed.
End R.

Lemma lognormal_deviation : forall sigma mu1 mu2 i v,
    0 < sigma -> one_deviation (LLogNormal sigma mu1) i v -> one_deviation (LLogNormal sigma mu2) i v -> mu1 = mu2.
Proof.
  intros sigma mu1 mu2 i v Hs [_ H1] [_ H2]. cbn [shock_variance] in H1, H2.
  assert (E : (exp (sigma * sigma) - 1) * exp (2 * mu1 + sigma * sigma) =
              (exp (sigma * sigma) - 1) * exp (2 * mu2 + sigma * sigma)) by congruence.
  assert (P : 1 < exp (sigma * sigma)).
  { rewrite <- exp_0. apply exp_increasing. nra. }
  apply Rmult_eq_reg_l in E; [|lra]. apply exp_inv in E. lra.
Qed.
