(** Property C135: the matrix used by the Levenberg-Marquardt complementarity solver at the kinks of the residual. *)
From Coq Require Import Reals Arith Lra.
From Verif.Base Require Import Prelude Sums Ext.
From Verif.Model Require Import Lmmcp.
From Verif.Spec Require Import Complementarity Subdifferential.
From Verif.Proofs Require Import LmmcpKinkEnd.
Open Scope R_scope.

(** C135, full statement: at every point, each of the 2n rows of the matrix is a generalised gradient (a convex combination
    of limits of gradients at nearby points) of the corresponding residual.  Second block: true at points that are exactly
    on the kinks or more than 2e-8 away from them, whatever the bounds. *)
Theorem C135_second_block_partial :
  forall nan o n F DF lb ub x i, (i < n)%nat -> bounds_ok (Big o) (lb i) (ub i) ->
    (forall u v, (forall i, (i < n)%nat -> u i = v i) -> forall i, (i < n)%nat -> F u i = F v i) ->
    smooth_at n F DF x ->
    clear_of (2 / 100000000) (lower_cut (Big o) (lb i)) (upper_cut (Big o) (ub i)) (x i) (F x i) ->
    generalised_gradient n (fun y => Phi nan o n F lb ub y (n + i)%nat) x (DPhi nan o n F DF lb ub x (n + i)%nat).
Proof. intros; apply (all_rows nan o n F DF lb ub x i); assumption. Qed.
Print Assumptions C135_second_block_partial.

(** First block: also true, except with two finite bounds at the lower one with F = 0. *)
Theorem C135_first_block_partial :
  forall nan o n F DF lb ub x i, (i < n)%nat -> bounds_ok (Big o) (lb i) (ub i) ->
    (forall u v, (forall i, (i < n)%nat -> u i = v i) -> forall i, (i < n)%nat -> F u i = F v i) ->
    smooth_at n F DF x ->
    clear_of (2 / 100000000) (lower_cut (Big o) (lb i)) (upper_cut (Big o) (ub i)) (x i) (F x i) ->
    ~ (lower_cut (Big o) (lb i) = Fin (x i) /\ upper_cut (Big o) (ub i) <> PInf /\ F x i = 0) ->
    generalised_gradient n (fun y => Phi nan o n F lb ub y i) x (DPhi nan o n F DF lb ub x i).
Proof. intros; apply (all_rows nan o n F DF lb ub x i); assumption. Qed.
Print Assumptions C135_first_block_partial.

(** There it is false: one unknown between 0 and 4, F(x) = 5 x, at x = 0.  Every generalised gradient of the residual is
    at most 0; the entry of the matrix is +2. *)
Theorem C135_two_bounds_refuted :
  forall nan o, 4 < Big o ->
    let F := fun (y : nat -> R) (_ : nat) => 5 * y 0%nat in
    let DF := fun (_ : nat -> R) (_ _ : nat) => 5 in
    let lb := fun _ : nat => Fin 0 in let ub := fun _ : nat => Fin 4 in
    smooth_at 1 F DF (fun _ => 0) /\ bounds_ok (Big o) (lb 0%nat) (ub 0%nat) /\
    DPhi nan o 1 F DF lb ub (fun _ => 0) 0%nat 0%nat = 2 /\
    forall g, generalised_gradient 1 (fun y => Phi nan o 1 F lb ub y 0%nat) (fun _ => 0) g -> g 0%nat <= 0.
Proof.
  intros nan o HB. split; [exact (five_smooth (fun _ => 0))|]. split; [exact (proj1 (proj2 (four_index o HB)))|].
  exact (lower_kink_wrong nan o HB).
Qed.
Print Assumptions C135_two_bounds_refuted.

(** Within 1e-8 of a kink without being on it, the code uses the formulas of the kink: both blocks are false there.  One
    unknown with the bound 0.  Second block, at x = 1 with F(1) = -5e-9: the residual is zero around 1, the entry is about 0.9. *)
Theorem C135_close_second_refuted :
  forall nan o, 0 < Big o ->
    let F := fun (y : nat -> R) (_ : nat) => y 0%nat - 1 - 5 / 1000000000 in
    let DF := fun (_ : nat -> R) (_ _ : nat) => 1 in
    let lb := fun _ : nat => Fin 0 in let ub := fun _ : nat => PInf in
    smooth_at 1 F DF (fun _ => 1) /\ bounds_ok (Big o) (lb 0%nat) (ub 0%nat) /\
    DPhi nan o 1 F DF lb ub (fun _ => 1) 1%nat 0%nat = 9 / 10 * (1 - 5 / 1000000000) /\
    forall g, generalised_gradient 1 (fun y => Phi nan o 1 F lb ub y 1%nat) (fun _ => 1) g -> g 0%nat = 0.
Proof.
  intros nan o HB. split; [exact (shifted_smooth (fun _ => 1))|]. split; [exact (proj2 (lower_index o HB))|].
  exact (near_kink_second nan o HB).
Qed.
Print Assumptions C135_close_second_refuted.

(** First block, at x = 5e-9 with F = 5e-9 everywhere: the entry is 0, the residual falls with x. *)
Theorem C135_close_first_refuted :
  forall nan o, 0 < Big o ->
    let F := fun (_ : nat -> R) (_ : nat) => 5 / 1000000000 in
    let DF := fun (_ : nat -> R) (_ _ : nat) => 0 in
    let lb := fun _ : nat => Fin 0 in let ub := fun _ : nat => PInf in
    let x := fun _ : nat => 5 / 1000000000 in
    smooth_at 1 F DF x /\ bounds_ok (Big o) (lb 0%nat) (ub 0%nat) /\
    DPhi nan o 1 F DF lb ub x 0%nat 0%nat = 0 /\
    forall g, generalised_gradient 1 (fun y => Phi nan o 1 F lb ub y 0%nat) x g -> g 0%nat <= - (1 / 100).
Proof.
  intros nan o HB. split; [exact (slight_smooth (fun _ => 5 / 1000000000))|]. split; [exact (proj2 (lower_index o HB))|].
  exact (near_kink_first nan o HB).
Qed.
Print Assumptions C135_close_first_refuted.

(** Points on kinks: the upper bound with F = 0, the inside with F = 0, the only bound with F = 0. *)
Example C135_example :
  clear_of (2 / 100000000) (Fin 0) (Fin 4) 4 0 /\ clear_of (2 / 100000000) (Fin 0) (Fin 4) 1 0 /\
  clear_of (2 / 100000000) (Fin 0) PInf 0 0.
Proof. exact clear_example. Qed.
