(** Simulations with a driving process that is shorter or longer than the horizon. *)
From Coq Require Import String ZArith Reals List Arith Bool Lia Lra.
From Verif.Base Require Import Prelude Arrays.
From Verif.Model Require Import DecisionRule Simulation.
From Verif.Proofs Require Import SimulationProofs.
Import ListNotations.
Open Scope R_scope.

Lemma for_range_res_short : forall {A} (body : nat -> A -> res A) s e j n,
  (forall k x, (k < j)%nat -> exists y, body k x = Ok y) -> (forall x, body j x = Err e) -> (j < n)%nat ->
  for_range_res n body s = Err e.
Proof.
  intros A body s e j n H1 H2. induction n as [|n IH]; intros H; [lia|]. cbn [for_range_res].
  destruct (Nat.eq_dec j n) as [->|Hj].
  - destruct (for_range_res_total n body s H1) as [r ->]. apply H2.
  - rewrite IH by lia. reflexivity.
Qed.

Section Driven.
  Variable rng : Type.
  Variable seeded : Z -> rng.
  Variable rand : rng -> nat -> R.
  Variable skip : rng -> nat -> rng.
  Variable md : sim_model.
  Variable dr : rule.
  Variable dflt : sim_process rng.
  Variable a : sim_args rng.
  Variable r : rng.

  Lemma body_ok : forall (p : prepared) k st, (k < pr_T p)%nat ->
    match pr_i p with
    | Some ii => (0 < sa_N a)%nat /\ forall i s, exists x, ru_is dr (Some i) s = Ok x
    | None => forall m s, exists x, ru_ms dr m s = Ok x
    end -> exists st', sim_body md dr (sa_N a) (sa_T a) p k st = Ok st'.
  Proof.
    intros p k [[s x] mp] Hk H. unfold sim_body. rewrite (proj2 (Nat.ltb_lt _ _) Hk).
    destruct (pr_i p) as [ii|].
    - destruct H as [HN H]. rewrite (proj2 (Nat.eqb_neq _ _)) by lia.
      destruct (rows_res_ok (sa_N a) (fun n => ru_is dr (Some (ii k n)) (s k n))) as [xi E]; [auto|].
      rewrite E. eexists; reflexivity.
    - destruct (rows_res_ok (sa_N a) (fun n => ru_ms dr (pr_m p k n) (s k n))) as [xi E]; [auto|].
      rewrite E. eexists; reflexivity.
  Qed.

  Lemma body_end : forall (p : prepared) st, sim_body md dr (sa_N a) (sa_T a) p (pr_T p) st = Err ExcIndex.
  Proof. intros p [[s x] mp]. unfold sim_body. rewrite Nat.ltb_irrefl. reflexivity. Qed.

  Lemma driven_path : forall T m, sa_driving a = DPath T m -> (1 <= sa_T a)%nat ->
    (forall m s, exists x, ru_ms dr m s = Ok x) ->
    ((T < sa_T a)%nat -> fst (simulate seeded rand skip md dr dflt a r) = Err ExcIndex) /\
    ((sa_T a < T)%nat -> forall aux, sm_aux md = Some aux ->
       fst (simulate seeded rand skip md dr dflt a r) = Err ExcValue) /\
    ((sa_T a < T)%nat -> sm_aux md = None ->
       exists o, fst (simulate seeded rand skip md dr dflt a r) = Ok o).
  Proof.
    intros T m Hd HT Hr. unfold simulate. rewrite (proj2 (Nat.eqb_neq (sa_T a) 0)) by lia.
    unfold prepare. rewrite Hd.
    destruct (Hr (orelse (sa_m0 a) (sm_m md)) (orelse (sa_s0 a) (sm_s md))) as [x0 ->]. cbn [bind].
    destruct (Nat.eqb_spec T 0) as [->|HT0].
    - split; [reflexivity|]. split; intros; lia.
    - cbn [fst]. set (p := Prepared T m None (m 0%nat)).
      assert (B : forall k st, (k < T)%nat -> exists st', sim_body md dr (sa_N a) (sa_T a) p k st = Ok st')
        by (intros k st Hk; apply body_ok; assumption).
      split; [|split].
      + intros HL. rewrite (for_range_res_short _ _ ExcIndex T (sa_T a) B (body_end p) HL). reflexivity.
      + intros HL aux Ha.
        destruct (for_range_res_total (sa_T a) (sim_body md dr (sa_N a) (sa_T a) p)
          ((fun t n => match t with O => orelse (sa_s0 a) (sm_s md) | S _ => [] end), (fun _ _ => []), pr_before p))
          as [[[s x] mp] E]; [intros k st Hk; apply B; lia|]. rewrite E. cbn [bind].
        unfold sim_table. rewrite Ha. cbn [pr_T p]. rewrite (proj2 (Nat.eqb_neq T (sa_T a))) by lia. reflexivity.
      + intros HL Ha.
        destruct (for_range_res_total (sa_T a) (sim_body md dr (sa_N a) (sa_T a) p)
          ((fun t n => match t with O => orelse (sa_s0 a) (sm_s md) | S _ => [] end), (fun _ _ => []), pr_before p))
          as [[[s x] mp] E]; [intros k st Hk; apply B; lia|]. rewrite E. cbn [bind].
        unfold sim_table. rewrite Ha. cbn [pr_T pr_i p bind]. eexists; reflexivity.
  Qed.

  Lemma driven_indices : forall T i nodes, sa_driving a = DIndices T i -> (1 <= sa_T a)%nat -> (0 < sa_N a)%nat ->
    ru_nodes dr = Ok nodes -> (forall t n, (t < T)%nat -> (n < sa_N a)%nat -> (i t n < nrow nodes)%nat) ->
    (forall i s, exists x, ru_is dr i s = Ok x) ->
    ((T < sa_T a)%nat -> fst (simulate seeded rand skip md dr dflt a r) = Err ExcIndex) /\
    ((sa_T a < T)%nat -> fst (simulate seeded rand skip md dr dflt a r) = Err ExcValue).
  Proof.
    intros T i nodes Hd HT HN Hn Hi Hr. unfold simulate. rewrite (proj2 (Nat.eqb_neq (sa_T a) 0)) by lia.
    unfold prepare. rewrite Hd, Hn. cbn [bind].
    replace (forallb (fun t => forallb (fun n => Nat.ltb (i t n) (nrow nodes)) (seq 0 (sa_N a))) (seq 0 T)) with true.
    2:{ symmetry. apply forallb_forall. intros t Ht. apply forallb_forall. intros n Hn'.
        apply in_seq in Ht, Hn'. apply Nat.ltb_lt. apply Hi; lia. }
    destruct (Hr (sa_i0 a) (orelse (sa_s0 a) (sm_s md))) as [x0 ->]. cbn [bind].
    destruct (Nat.eqb_spec T 0) as [->|HT0].
    - split; [reflexivity|]. intros; lia.
    - cbn [fst]. set (p := Prepared T (fun t n => row nodes (i t n)) (Some i) (fun n => row nodes (i 0%nat n))).
      assert (B : forall k st, (k < T)%nat -> exists st', sim_body md dr (sa_N a) (sa_T a) p k st = Ok st').
      { intros k st Hk; apply body_ok; [assumption|]. cbn. split; [assumption|]. intros; apply Hr. }
      split.
      + intros HL. rewrite (for_range_res_short _ _ ExcIndex T (sa_T a) B (body_end p) HL). reflexivity.
      + intros HL.
        destruct (for_range_res_total (sa_T a) (sim_body md dr (sa_N a) (sa_T a) p)
          ((fun t n => match t with O => orelse (sa_s0 a) (sm_s md) | S _ => [] end), (fun _ _ => []), pr_before p))
          as [[[s x] mp] E]; [intros k st Hk; apply B; lia|]. rewrite E. cbn [bind].
        unfold sim_table. cbn [pr_T pr_i p]. rewrite (proj2 (Nat.eqb_neq T (sa_T a))) by lia.
        destruct (sm_aux md); reflexivity.
  Qed.
End Driven.
