(** Property theorems C119 (and C02, long run): stationary laws. *)
From Coq Require Import String Reals List Arith Lia Lra.
From Verif.Base Require Import Prelude Sums Arrays.
From Verif.Spec Require Import Product Markov LinearAlgebra StateGrid Stationary.
From Verif.Model Require Import LinearSolve Discretization Grids Distributions Processes Ergodic.
From Verif.Proofs Require Import GaussFinal GridProofs ErgodicProofs StationaryLaws Rouwenhorst RouwUnique.
Import ListNotations.
Open Scope R_scope.

(** C119.  The chain over the grid always has a stationary law; [ergodic_distribution] reports one exactly when it is
    the only one, and raises otherwise. *)
Theorem C119_unique :
  forall g solve N_m exo dr grid dp Pi,
    exact_solver solve -> complete_solver solve -> wf_grid grid -> (forall i, (i < N_m)%nat -> dp_n dp i = N_m) ->
    (forall i j, (i < N_m)%nat -> (j < N_m)%nat -> 0 <= dp_weight dp i j) ->
    (forall i, (i < N_m)%nat -> rsum N_m (dp_weight dp i) = 1) -> (0 < N_m)%nat ->
    ergodic_matrix g N_m exo dr grid dp = Ok Pi ->
    let N := (N_m * nrow (u_nodes grid))%nat in
    (exists mu, stationary_law N Pi mu) /\
    (only_law N Pi <-> exists mu, ergodic_distribution g solve N_m exo dr grid dp = Ok (Pi, mu) /\ stationary_law N Pi mu).
Proof. exact ergodic_unique. Qed.
Print Assumptions C119_unique.

Theorem C119_unique_iid :
  forall g solve m dr grid dp Pi,
    exact_solver solve -> complete_solver solve -> wf_grid grid ->
    (forall j, (j < dp_n dp 0)%nat -> 0 <= dp_weight dp 0 j) ->
    rsum (dp_n dp 0) (dp_weight dp 0) = 1 ->
    ergodic_matrix_iid g m dr grid dp = Ok Pi ->
    let N := nrow (u_nodes grid) in
    (exists mu, stationary_law N Pi mu) /\
    (only_law N Pi <-> exists mu, ergodic_distribution_iid g solve m dr grid dp = Ok (Pi, mu) /\ stationary_law N Pi mu).
Proof. exact ergodic_unique_iid. Qed.
Print Assumptions C119_unique_iid.

(** A node of the grid reached with positive probability from every node makes the law unique. *)
Theorem C119_reached :
  forall N P, stochastic N P -> forall j0, (j0 < N)%nat -> (forall i, (i < N)%nat -> 0 < mget P i j0) -> only_law N P.
Proof. exact reached_unique. Qed.
Print Assumptions C119_reached.

(** Under the reported law, the exogenous nodes follow a stationary law of the exogenous chain. *)
Theorem C119_marginal :
  forall g solve N_m exo dr grid dp Pi mu,
    exact_solver solve -> wf_grid grid -> (forall i, (i < N_m)%nat -> dp_n dp i = N_m) ->
    (forall i j, (i < N_m)%nat -> (j < N_m)%nat -> 0 <= dp_weight dp i j) ->
    (forall i, (i < N_m)%nat -> rsum N_m (dp_weight dp i) = 1) ->
    ergodic_distribution g solve N_m exo dr grid dp = Ok (Pi, mu) ->
    let N_s := nrow (u_nodes grid) in
    let p i := rsum N_s (fun n => mu (i * N_s + n)%nat) in
    stationary_law N_m (Mat N_m N_m (dp_weight dp)) p.
Proof. exact ergodic_marginal. Qed.
Print Assumptions C119_marginal.

(** If the transitions stay within the grid, the mean of tomorrow's state under the reported law is that of today's. *)
Theorem C119_mean :
  forall g solve N_m exo dr grid dp Pi mu c,
    exact_solver solve -> wf_grid grid -> (forall i, (i < N_m)%nat -> dp_n dp i = N_m) ->
    (forall i j, (i < N_m)%nat -> (j < N_m)%nat -> 0 <= dp_weight dp i j) ->
    (forall i, (i < N_m)%nat -> rsum N_m (dp_weight dp i) = 1) ->
    ergodic_distribution g solve N_m exo dr grid dp = Ok (Pi, mu) ->
    (c < length (u_min grid))%nat ->
    let N_s := nrow (u_nodes grid) in
    let s n := row (u_nodes grid) n in
    let s' i n j := g (exo i) (s n) (dr i (s n)) (dp_node dp i j) in
    (forall i j n, (i < N_m)%nat -> (j < N_m)%nat -> (n < N_s)%nat ->
       nth c (u_min grid) 0 <= nth c (s' i n j) 0 <= nth c (u_max grid) 0) ->
    rsum N_m (fun i => rsum N_s (fun n => mu (i * N_s + n)%nat * rsum N_m (fun j => dp_weight dp i j * nth c (s' i n j) 0)))
    = rsum N_m (fun i => rsum N_s (fun n => mu (i * N_s + n)%nat * mget (u_nodes grid) n c)).
Proof. exact ergodic_means. Qed.
Print Assumptions C119_mean.

(** A state that never moves has several stationary laws: the call raises. *)
Theorem C119_several :
  exists grid dp e, wf_grid grid /\
    (forall j, (j < dp_n dp 0)%nat -> 0 <= dp_weight dp 0 j) /\ rsum (dp_n dp 0) (dp_weight dp 0) = 1 /\
    ergodic_distribution_iid (fun _ s _ _ => s) gauss_solve [0] (fun _ => []) grid dp = Err e.
Proof. exact ergodic_several. Qed.
Print Assumptions C119_several.

(** The hypotheses on the solver are met by gaussian elimination; C45_example is a case where the law is reported. *)
Example C119_example : exact_solver gauss_solve /\ complete_solver gauss_solve.
Proof. split; [exact gauss_exact_solver|exact gauss_complete_solver]. Qed.

(** C02 (long run).  The binomial law is the only stationary law of a Rouwenhorst chain. *)
Theorem C02_rouwenhorst_only_law :
  forall (rho sigma : R) (N : nat) (nodes : vec) (P : mat),
    (2 <= N)%nat -> rouwenhorst rho sigma N = Ok (nodes, P) ->
    stationary_law N P (binom_half N) /\ only_law N P.
Proof. exact rouwenhorst_only_law. Qed.
Print Assumptions C02_rouwenhorst_only_law.

(** C02 (all horizons).  k dates ahead the chain has the conditional mean and variance of the AR(1). *)
Theorem C02_rouwenhorst_horizon :
  forall (rho sigma : R) (N : nat) (nodes : vec) (P : mat) (k : nat),
    (2 <= N)%nat -> rouwenhorst rho sigma N = Ok (nodes, P) ->
    forall i, (i < N)%nat ->
      mean_after N P k (vget nodes) i = rho ^ k * vget nodes i /\
      mean_after N P k (fun j => (vget nodes j - rho ^ k * vget nodes i) ^ 2) i
      = sigma ^ 2 * (1 - (rho ^ k) ^ 2) / (1 - rho ^ 2).
Proof. exact rouwenhorst_horizon. Qed.
Print Assumptions C02_rouwenhorst_horizon.

Example C02_horizon_example : exists nodes P, rouwenhorst (9 / 10) (1 / 10) 5 = Ok (nodes, P).
Proof. apply rouwenhorst_succeeds; [lia|lra]. Qed.
