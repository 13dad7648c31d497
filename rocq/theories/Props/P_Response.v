(** C142: without an impulse, [response] shows the effect of a shock of one standard deviation. *)
From Coq Require Import String Reals List Arith ZArith Lia Lra.
From Verif.Base Require Import Prelude Arrays.
From Verif.Spec Require Import Simulation Response.
From Verif.Model Require Import Grids Distributions Processes Simulation Response.
From Verif.Proofs Require Import ResponseProofs.
Import ListNotations.
Open Scope R_scope.

(** Normal shocks: the result is the one of a shock of one standard deviation to that variable only. *)
Theorem C142_normal_partial :
  forall (rng : Type) (seeded : Z -> rng) rand skip (md : sim_model) (dr : rule) dflt self name i T seed r,
    listed_at name (sm_exogenous md) i ->
    (i < nrow (nm_Sigma self))%nat -> (i < ncol (nm_Sigma self))%nat -> 0 <= mget (nm_Sigma self) i i ->
    exists v, one_deviation (LNormal self) i v /\
      response_call seeded rand skip md dr dflt (LNormal self) name T None seed r =
      response_call seeded rand skip md dr dflt (LNormal self) name T (Some v) seed r.
Proof. exact normal_default. Qed.
Print Assumptions C142_normal_partial.

(** An impulse of size [v], given or by default, to an i.i.d. variable known by its name. *)
Theorem C142_given :
  forall (rng : Type) (seeded : Z -> rng) rand skip (md : sim_model) (dr : rule) dflt law name i T seed r v out r',
    listed_at name (sm_exogenous md) i -> kind_of law = Some KIid ->
    response_call seeded rand skip md dr dflt law name T (Some v) seed r = (Ok out, r') ->
    so_T out = T /\ so_N out = 1%nat /\ exists s x,
      reported md out None (impulse_path md i v) s x /\
      starts_at (sm_s md) 1 s /\
      rule_followed dr T 1 None (impulse_path md i v) s x /\
      lagged_law (sm_g md) T 1 (impulse_path md i v 0%nat) (impulse_path md i v) s x.
Proof. exact call_given. Qed.
Print Assumptions C142_given.

Theorem C142_unknown :
  forall (rng : Type) (seeded : Z -> rng) rand skip (md : sim_model) (dr : rule) dflt law name T impulse seed r,
    ~ In name (sm_exogenous md) ->
    response_call seeded rand skip md dr dflt law name T impulse seed r = (Err ExcValue, r).
Proof. exact unknown_name. Qed.
Print Assumptions C142_unknown.

Example C142_returns :
  forall (rng : Type) (seeded : Z -> rng) rand skip (md : sim_model) (dr : rule) dflt law name i T seed r v,
    listed_at name (sm_exogenous md) i -> kind_of law = Some KIid -> (2 <= T)%nat ->
    (forall m s, exists x, ru_ms dr m s = Ok x) ->
    exists out r', response_call seeded rand skip md dr dflt law name T (Some v) seed r = (Ok out, r').
Proof. exact call_ok. Qed.

Example C142_normal_case :
  let self := {| nm_Sigma := Mat 2 2 (fun i j => if Nat.eqb i j then 4 else 1); nm_Mu := Vec 2 (fun _ => 0) |} in
  listed_at "e2" ["e1"; "e2"]%string 1 /\
  (1 < nrow (nm_Sigma self))%nat /\ (1 < ncol (nm_Sigma self))%nat /\ 0 <= mget (nm_Sigma self) 1 1 /\
  one_deviation (LNormal self) 1 2.
Proof.
  cbv zeta. cbn [nm_Sigma nrow ncol mget Nat.eqb]. split; [|split; [lia|split; [lia|split; [lra|]]]].
  - split; [reflexivity|]. intros j Hj. destruct j; [discriminate|lia].
  - split; [lra|]. cbn [shock_variance nm_Sigma mget Nat.eqb]. f_equal; lra.
Qed.

(** Univariate normal shocks: the square root of the standard deviation is used. *)
Theorem C142_unormal_refuted :
  forall (rng : Type) (seeded : Z -> rng) rand skip (md : sim_model) (dr : rule) dflt sigma mu name i T seed r,
    listed_at name (sm_exogenous md) i -> 0 < sigma -> sigma <> 1 ->
    exists v,
      response_call seeded rand skip md dr dflt (LUNormal sigma mu) name T None seed r =
      response_call seeded rand skip md dr dflt (LUNormal sigma mu) name T (Some v) seed r /\
      v * v = sigma /\ ~ one_deviation (LUNormal sigma mu) i v /\
      forall w, one_deviation (LUNormal sigma mu) i w -> w = sigma.
Proof. exact unormal_default. Qed.
Print Assumptions C142_unormal_refuted.

(** The tables differ at the date of the shock. *)
Theorem C142_unormal_table_refuted :
  forall (rng : Type) (seeded : Z -> rng) rand skip (md : sim_model) (dr : rule) dflt
         sigma mu name i T seed r out1 r1 out2 r2,
    listed_at name (sm_exogenous md) i -> 0 < sigma -> sigma <> 1 -> (2 <= T)%nat -> sm_aux md <> None ->
    response_call seeded rand skip md dr dflt (LUNormal sigma mu) name T None seed r = (Ok out1, r1) ->
    response_call seeded rand skip md dr dflt (LUNormal sigma mu) name T (Some sigma) seed r = (Ok out2, r2) ->
    nth i (so_row out1 1%nat 0%nat) 0 = sqrt sigma /\ nth i (so_row out2 1%nat 0%nat) 0 = sigma /\
    so_row out1 1%nat 0%nat <> so_row out2 1%nat 0%nat.
Proof. exact unormal_differs. Qed.
Print Assumptions C142_unormal_table_refuted.

(** Lognormal shocks: the same size whatever the location parameter, which the deviation depends on. *)
Theorem C142_lognormal_refuted :
  forall (rng : Type) (seeded : Z -> rng) rand skip (md : sim_model) (dr : rule) dflt sigma mu name i T seed r,
    listed_at name (sm_exogenous md) i -> 0 < sigma ->
    exists v,
      response_call seeded rand skip md dr dflt (LLogNormal sigma mu) name T None seed r =
      response_call seeded rand skip md dr dflt (LLogNormal sigma mu) name T (Some v) seed r /\ v * v = sigma.
Proof. exact lognormal_default. Qed.
Print Assumptions C142_lognormal_refuted.

Theorem C142_lognormal_once_refuted : forall sigma mu1 mu2 i v,
    0 < sigma -> one_deviation (LLogNormal sigma mu1) i v -> one_deviation (LLogNormal sigma mu2) i v -> mu1 = mu2.
Proof. exact lognormal_deviation. Qed.
Print Assumptions C142_lognormal_once_refuted.

(** Other shocks (uniform, beta, mixtures, products, finite laws...): the call raises unless an impulse is given. *)
Theorem C142_others_refuted :
  forall (rng : Type) (seeded : Z -> rng) rand skip (md : sim_model) (dr : rule) dflt law name i T seed r,
    listed_at name (sm_exogenous md) i -> law = LOther \/ law = LNoResponse ->
    response_call seeded rand skip md dr dflt law name T None seed r = (Err ExcAttribute, r).
Proof. exact no_default. Qed.
Print Assumptions C142_others_refuted.
