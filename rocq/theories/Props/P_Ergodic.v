(** Property theorems C43-C45, C85: ergodic distributions. *)
From Coq Require Import String Reals List Arith Lia Lra.
From Verif.Base Require Import Prelude Sums Arrays.
From Verif.Spec Require Import Product Markov LinearAlgebra StateGrid.
From Verif.Model Require Import LinearSolve Discretization Grids Distributions Processes Ergodic.
From Verif.Proofs Require Import GaussFinal GridProofs ErgodicProofs.
Import ListNotations.
Open Scope R_scope.

(** C44.  Spreading mass [w] at the position [x n] of the unit interval or square, over a grid
    of shape [dims] whose nodes [k] have indices [components dims k]: row [n] receives [w] in
    total, nothing is removed, only nodes less than one step away in every direction receive
    something, and the mean position of the mass is [x n] clamped to the unit cube. *)
Theorem C44_spread :
  forall dims N A x w,
    length dims = 1%nat \/ length dims = 2%nat -> Forall (fun n => 2 <= n)%nat dims ->
    exists A', trembling_hand dims N A x w = Ok A' /\
      forall n, (n < N)%nat ->
        rsum (prodn dims) (fun k => A' n k - A n k) = w /\
        (0 <= w -> forall k, A n k <= A' n k) /\
        (forall c k, (c < length dims)%nat -> A' n k <> A n k ->
           Rabs (INR (nth c (components dims k) 0%nat) / (INR (nth c dims 0%nat) - 1) - Rmin (Rmax (x n c) 0) 1)
           < 1 / (INR (nth c dims 0%nat) - 1)) /\
        (forall c, (c < length dims)%nat ->
           rsum (prodn dims) (fun k => (A' n k - A n k) * (INR (nth c (components dims k) 0%nat) / (INR (nth c dims 0%nat) - 1)))
           = w * Rmin (Rmax (x n c) 0) 1).
Proof. intros dims N A x w H1 H2. exact (spread_spec dims N A x w (conj H1 H2)). Qed.
Print Assumptions C44_spread.

(** Unsupported dimensions and axes with a single node raise. *)
Theorem C44_errors :
  (forall dims N A x w, length dims <> 1%nat -> length dims <> 2%nat ->
     trembling_hand dims N A x w = Err (ExcGeneric "Unsupported.")) /\
  (forall dims N A x w, length dims = 1%nat \/ length dims = 2%nat -> In 1%nat dims ->
     trembling_hand dims N A x w = Err ExcZeroDiv).
Proof. exact spread_errors. Qed.
Print Assumptions C44_errors.

Example C44_example :
  exists A', trembling_hand [3%nat] 1 (fun _ _ => 0) (fun _ _ => 3 / 4) 8 = Ok A' /\
    rsum 3 (fun k => A' 0%nat k - 0) = 8.
Proof.
  destruct (C44_spread [3%nat] 1 (fun _ _ => 0) (fun _ _ => 3 / 4) 8) as (A' & E & H);
    [left; reflexivity|repeat constructor|].
  exists A'. split; [exact E|]. exact (proj1 (H 0%nat ltac:(lia))).
Qed.

(** C43.  The matrix over pairs (exogenous node i, endogenous node n), numbered i*N_s+n, is
    stochastic; summing over endogenous nodes gives the exogenous chain. *)
Theorem C43_markov :
  forall g N_m exo dr grid dp,
    wf_grid grid -> (forall i, (i < N_m)%nat -> dp_n dp i = N_m) ->
    (forall i j, (i < N_m)%nat -> (j < N_m)%nat -> 0 <= dp_weight dp i j) ->
    (forall i, (i < N_m)%nat -> rsum N_m (dp_weight dp i) = 1) ->
    let N_s := nrow (u_nodes grid) in
    exists Pi, ergodic_matrix g N_m exo dr grid dp = Ok Pi /\
      stochastic (N_m * N_s) Pi /\
      (forall i j n, (i < N_m)%nat -> (j < N_m)%nat -> (n < N_s)%nat ->
         rsum N_s (fun k => mget Pi (i * N_s + n) (j * N_s + k)) = dp_weight dp i j).
Proof. exact ergodic_matrix_stochastic. Qed.
Print Assumptions C43_markov.

Theorem C43_iid :
  forall g m dr grid dp,
    wf_grid grid -> (forall j, (j < dp_n dp 0)%nat -> 0 <= dp_weight dp 0 j) ->
    rsum (dp_n dp 0) (dp_weight dp 0) = 1 ->
    exists Pi, ergodic_matrix_iid g m dr grid dp = Ok Pi /\ stochastic (nrow (u_nodes grid)) Pi.
Proof. exact ergodic_matrix_iid_stochastic. Qed.
Print Assumptions C43_iid.

(** C85.  From (i,n), conditionally on the exogenous node j, the mean of the state [c] under the
    matrix is the state given by the transition function at the decision rule, when it is
    inside the grid. *)
Theorem C85_conditional_mean :
  forall g N_m exo dr grid dp,
    wf_grid grid -> (forall i, (i < N_m)%nat -> dp_n dp i = N_m) ->
    (forall i j, (i < N_m)%nat -> (j < N_m)%nat -> 0 <= dp_weight dp i j) ->
    (forall i, (i < N_m)%nat -> rsum N_m (dp_weight dp i) = 1) ->
    let N_s := nrow (u_nodes grid) in
    exists Pi, ergodic_matrix g N_m exo dr grid dp = Ok Pi /\
      (forall i j n c, (i < N_m)%nat -> (j < N_m)%nat -> (n < N_s)%nat -> (c < length (u_min grid))%nat ->
         let s := row (u_nodes grid) n in
         let s' := g (exo i) s (dr i s) (dp_node dp i j) in
         nth c (u_min grid) 0 <= nth c s' 0 <= nth c (u_max grid) 0 ->
         rsum N_s (fun k => mget Pi (i * N_s + n) (j * N_s + k) * mget (u_nodes grid) k c)
         = dp_weight dp i j * nth c s' 0).
Proof. exact ergodic_matrix_mean. Qed.
Print Assumptions C85_conditional_mean.

Theorem C85_conditional_mean_iid :
  forall g m dr grid dp,
    wf_grid grid -> (forall j, (j < dp_n dp 0)%nat -> 0 <= dp_weight dp 0 j) ->
    rsum (dp_n dp 0) (dp_weight dp 0) = 1 ->
    let N_s := nrow (u_nodes grid) in
    exists Pi, ergodic_matrix_iid g m dr grid dp = Ok Pi /\
      (forall n c, (n < N_s)%nat -> (c < length (u_min grid))%nat ->
         let s := row (u_nodes grid) n in
         let s' j := g m s (dr s) (dp_node dp 0 j) in
         (forall j, (j < dp_n dp 0)%nat -> nth c (u_min grid) 0 <= nth c (s' j) 0 <= nth c (u_max grid) 0) ->
         rsum N_s (fun k => mget Pi n k * mget (u_nodes grid) k c)
         = rsum (dp_n dp 0) (fun j => dp_weight dp 0 j * nth c (s' j) 0)).
Proof. exact ergodic_matrix_iid_mean. Qed.
Print Assumptions C85_conditional_mean_iid.

(** C45.  The reported law is a stationary probability of the reported matrix. *)
Theorem C45_markov :
  forall g solve N_m exo dr grid dp Pi mu,
    exact_solver solve -> wf_grid grid -> (forall i, (i < N_m)%nat -> dp_n dp i = N_m) ->
    (forall i j, (i < N_m)%nat -> (j < N_m)%nat -> 0 <= dp_weight dp i j) ->
    (forall i, (i < N_m)%nat -> rsum N_m (dp_weight dp i) = 1) ->
    ergodic_distribution g solve N_m exo dr grid dp = Ok (Pi, mu) ->
    let N := (N_m * nrow (u_nodes grid))%nat in
    ergodic_matrix g N_m exo dr grid dp = Ok Pi /\
    stationary N Pi mu /\ rsum N mu = 1 /\ (forall i, (i < N)%nat -> 0 <= mu i).
Proof. exact ergodic_law. Qed.
Print Assumptions C45_markov.

Theorem C45_iid :
  forall g solve m dr grid dp Pi mu,
    exact_solver solve -> wf_grid grid ->
    (forall j, (j < dp_n dp 0)%nat -> 0 <= dp_weight dp 0 j) ->
    rsum (dp_n dp 0) (dp_weight dp 0) = 1 ->
    ergodic_distribution_iid g solve m dr grid dp = Ok (Pi, mu) ->
    let N := nrow (u_nodes grid) in
    ergodic_matrix_iid g m dr grid dp = Ok Pi /\
    stationary N Pi mu /\ rsum N mu = 1 /\ (forall i, (i < N)%nat -> 0 <= mu i).
Proof. exact ergodic_law_iid. Qed.
Print Assumptions C45_iid.

(** An exact solver (the one of newton.py), a grid and a process meeting the hypotheses, on
    which the ergodic distribution is computed. *)
Example C45_example :
  exact_solver gauss_solve /\
  exists grid Pi mu, wf_grid grid /\
    ergodic_distribution_iid (fun _ s _ _ => map (fun v => v / 2) s) gauss_solve [0] (fun _ => []) grid
      (iid_process (Equi (Mat 2 1 (fun i _ => INR i)))) = Ok (Pi, mu).
Proof. exact ergodic_example. Qed.
