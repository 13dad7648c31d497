(** Ergodic distributions: dolo/algos/ergodic.py. *)
From Coq Require Import String Reals List Arith ZArith.
From Verif.Base Require Import Prelude Sums Arrays.
From Verif.Model Require Import Discretization Grids Distributions Processes.
Import ListNotations.
Open Scope R_scope.

(** ergodic.py:34 (and 77, 83). *)
Definition clamp01 (x : R) : R := Rmin (Rmax x 0) 1.

(** 35-37 (and 78-80, 84-86): the node on the left, [np.floor_divide] being the exact floor of
    the quotient; [n] is the number of nodes of the axis. *)
Definition hand_q (n : nat) (x : R) : Z :=
  let delta := 1 / (INR n - 1) in
  Z.min (Z.max 0 (Int_part (clamp01 x / delta))) (Z.of_nat n - 2).

(** 39, 41. *)
Definition hand_lambda (n : nat) (x : R) : R :=
  let delta := 1 / (INR n - 1) in clamp01 x / delta - IZR (hand_q n x).
(** 88, 91 (the other way to write it, used in the two-dimensional case). *)
Definition hand_lambda2 (n : nat) (x : R) : R :=
  let delta := 1 / (INR n - 1) in (clamp01 x - IZR (hand_q n x) * delta) / delta.
Definition hand_index (n : nat) (x : R) : nat := Z.to_nat (hand_q n x).

(** 26-44: [A] has shape (N, n0), [x] shape (N, 1), entries [x n 0].  A single node divides by
    zero. *)
Definition trembling_hand_1d (N n0 : nat) (A : nat -> nat -> R) (x : nat -> nat -> R) (w : R)
  : res (nat -> nat -> R) :=
  if Nat.eqb n0 1 then Err ExcZeroDiv
  else if (Nat.eqb n0 0 && negb (Nat.eqb N 0))%bool then Err ExcIndex
  else Ok (for_range N (fun n A =>
         let q := hand_index n0 (x n 0%nat) in
         let lam := hand_lambda n0 (x n 0%nat) in
         let A1 := upd2 A n q (A n q + (1 - lam) * w) in
         upd2 A1 n (q + 1) (A1 n (q + 1)%nat + lam * w)) A).

Definition upd3 {A} (m : nat -> nat -> nat -> A) (i j k : nat) (v : A) : nat -> nat -> nat -> A :=
  fun a b c => if andb (Nat.eqb a i) (andb (Nat.eqb b j) (Nat.eqb c k)) then v else m a b c.

(** 68-97: [A] has shape (N, n0, n1), [x] shape (N, 2). *)
Definition trembling_hand_2d (N n0 n1 : nat) (A : nat -> nat -> nat -> R) (x : nat -> nat -> R) (w : R)
  : res (nat -> nat -> nat -> R) :=
  if (Nat.eqb n0 1 || Nat.eqb n1 1)%bool then Err ExcZeroDiv
  else if ((Nat.eqb n0 0 || Nat.eqb n1 0) && negb (Nat.eqb N 0))%bool then Err ExcIndex
  else Ok (for_range N (fun n A =>
         let q0 := hand_index n0 (x n 0%nat) in
         let q1 := hand_index n1 (x n 1%nat) in
         let l0 := hand_lambda2 n0 (x n 0%nat) in
         let l1 := hand_lambda2 n1 (x n 1%nat) in
         let A1 := upd3 A n q0 q1 (A n q0 q1 + (1 - l0) * (1 - l1) * w) in
         let A2 := upd3 A1 n q0 (q1 + 1) (A1 n q0 (q1 + 1)%nat + (1 - l0) * l1 * w) in
         let A3 := upd3 A2 n (q0 + 1) q1 (A2 n (q0 + 1)%nat q1 + l0 * (1 - l1) * w) in
         upd3 A3 n (q0 + 1) (q1 + 1) (A3 n (q0 + 1)%nat (q1 + 1)%nat + l0 * l1 * w)) A).

(** Both cases on arrays of shape (N, n0 x n1) flattened in C order; the view [A] of
    Pi is flattened in the same way by the reshape of lines 182 and 245. *)
Definition trembling_hand (dims : list nat) (N : nat) (A : nat -> nat -> R) (x : nat -> nat -> R) (w : R)
  : res (nat -> nat -> R) :=
  match dims with
  | [n0] => trembling_hand_1d N n0 A x w
  | [n0; n1] =>
      bind (trembling_hand_2d N n0 n1 (fun n a b => A n (a * n1 + b)%nat) x w)
           (fun A' => Ok (fun n k => A' n (k / n1)%nat (k mod n1)%nat))
  | _ => Err (ExcGeneric "Unsupported.")
  end.

Section ErgodicDistribution.
  (** [g m s x M]: transition function at the model's parameters. *)
  Variable g : list R -> list R -> list R -> list R -> list R.

  (** 175, 241: position in the unit cube. *)
  Definition renormalize (grid : ugrid) (S : list R) (k : nat) : R :=
    (nth k S 0 - nth k (u_min grid) 0) / (nth k (u_max grid) 0 - nth k (u_min grid) 0).

  (** A state with equal bounds gives nan. *)
  Definition flat_axis (grid : ugrid) : bool :=
    existsb (fun ab => if Req_EM_T (fst ab) (snd ab) then true else false) (combine (u_min grid) (u_max grid)).

  (** 142-184: Markov chain over [N_m] exogenous nodes; [exo] the nodes of the exogenous
      grid, [dr i s] the decision rule at exogenous node i.  The result is the matrix after
      the reshape, swapaxes and reshape of lines 182-184: entry
      (i_m * N_s + n, i_M * N_s + k). *)
  Definition ergodic_Pi (N_m : nat) (exo : nat -> list R) (dr : nat -> list R -> list R)
      (grid : ugrid) (dp : dprocess) : res (nat -> nat -> nat -> nat -> R) :=
    let N_s := nrow (u_nodes grid) in
    if flat_axis grid then Err ResultNaN else
    for_range_res N_m (fun i_m Pi =>
      for_range_res (dp_n dp i_m) (fun i_M Pi =>
        if Nat.leb N_m i_M then Err ExcIndex else
        let S := fun n => g (exo i_m) (row (u_nodes grid) n) (dr i_m (row (u_nodes grid) n)) (dp_node dp i_m i_M) in
        bind (trembling_hand (u_n grid) N_s (Pi i_m i_M) (fun n k => renormalize grid (S n) k) (dp_weight dp i_m i_M))
             (fun dest => Ok (fun a b => if andb (Nat.eqb a i_m) (Nat.eqb b i_M) then dest else Pi a b)))
        Pi) (fun _ _ _ _ => 0).

  Definition flatten_Pi (N_m N_s : nat) (Pi : nat -> nat -> nat -> nat -> R) : mat :=
    Mat (N_m * N_s) (N_m * N_s)
        (fun a b => Pi (a / N_s)%nat (b / N_s)%nat (a mod N_s)%nat (b mod N_s)%nat).

  (** 142-187 with compute_mu=False (the final reshape only splits the indices). *)
  Definition ergodic_matrix (N_m : nat) (exo : nat -> list R) (dr : nat -> list R -> list R)
      (grid : ugrid) (dp : dprocess) : res mat :=
    bind (ergodic_Pi N_m exo dr grid dp) (fun Pi4 => Ok (flatten_Pi N_m (nrow (u_nodes grid)) Pi4)).

  (** 210-245: i.i.d. process, [m] the calibrated exogenous values. *)
  Definition ergodic_iid_Pi (m : list R) (dr : list R -> list R) (grid : ugrid) (dp : dprocess)
    : res (nat -> nat -> R) :=
    let N_s := nrow (u_nodes grid) in
    if flat_axis grid then Err ResultNaN else
    for_range_res (dp_n dp 0) (fun i_M Pi =>
      let S := fun n => g m (row (u_nodes grid) n) (dr (row (u_nodes grid) n)) (dp_node dp 0 i_M) in
      trembling_hand (u_n grid) N_s Pi (fun n k => renormalize grid (S n) k) (dp_weight dp 0 i_M))
      (fun _ _ => 0).

  (** 210-248 with compute_mu=False. *)
  Definition ergodic_matrix_iid (m : list R) (dr : list R -> list R) (grid : ugrid) (dp : dprocess) : res mat :=
    bind (ergodic_iid_Pi m dr grid dp) (fun Pi2 => Ok (Mat (nrow (u_nodes grid)) (nrow (u_nodes grid)) Pi2)).

  (** 189-193, 251-255: the linear system.  [linalg_solve n A B] is numpy.linalg.solve. *)
  Variable linalg_solve : nat -> (nat -> nat -> R) -> (nat -> R) -> res (nat -> R).
  Definition ergodic_A (N : nat) (Pi : mat) : nat -> nat -> R :=
    fun i j => if Nat.eqb i (N - 1) then 1
               else mget Pi j i - (if Nat.eqb i j then 1 else 0).
  Definition ergodic_B (N : nat) : nat -> R := fun i => if Nat.eqb i (N - 1) then 1 else 0.

  (** 142-207 with compute_mu=True, without the labels; no node: [B[-1]] raises. *)
  Definition ergodic_distribution (N_m : nat) (exo : nat -> list R) (dr : nat -> list R -> list R)
      (grid : ugrid) (dp : dprocess) : res (mat * (nat -> R)) :=
    bind (ergodic_matrix N_m exo dr grid dp) (fun Pi =>
    let N := (N_m * nrow (u_nodes grid))%nat in
    if Nat.eqb N 0 then Err ExcIndex
    else bind (linalg_solve N (ergodic_A N Pi) (ergodic_B N)) (fun mu => Ok (Pi, mu))).

  (** 210-267. *)
  Definition ergodic_distribution_iid (m : list R) (dr : list R -> list R) (grid : ugrid) (dp : dprocess)
    : res (mat * (nat -> R)) :=
    bind (ergodic_matrix_iid m dr grid dp) (fun Pi =>
    let N := nrow (u_nodes grid) in
    if Nat.eqb N 0 then Err ExcIndex
    else bind (linalg_solve N (ergodic_A N Pi) (ergodic_B N)) (fun mu => Ok (Pi, mu))).
End ErgodicDistribution.
