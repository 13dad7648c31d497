(** Properties of the filters (dolo/numeric/filters.py): C52, C103. *)
From Coq Require Import String Reals List Arith Lia Lra.
From Verif.Base Require Import Prelude Sums.
From Verif.Spec Require Import LinearAlgebra Filters.
From Verif.Model Require Import LinearSolve Filters.
From Verif.Proofs Require Import PerturbationFinal FiltersProofs.
Import ListNotations.
Open Scope R_scope.

(** C52. For every series of at least four dates and every lam >= 0, the trend is the only minimiser of the
    documented criterion, and trend + cycle is the series. *)
Theorem C52_trend : forall solve n y lam ps, (4 <= n)%nat -> 0 <= lam -> exact_solver solve ->
    hp_filter solve (Series1 n y) lam = Ok ps ->
    exists T C, ps = [(T, C)] /\ hp_trend n lam y T /\ forall t, T t + C t = y t.
Proof. exact hp_filter_1d. Qed.
Print Assumptions C52_trend.

(** The system always has a solution: with an elimination solver the filter returns. *)
Theorem C52_returns : forall n y lam, (4 <= n)%nat -> 0 <= lam -> exists ps, hp_filter gauss_solve (Series1 n y) lam = Ok ps.
Proof. exact hp_filter_returns. Qed.
Print Assumptions C52_returns.
Example C52_trend_nontrivial : exists ps,
    hp_filter gauss_solve (Series1 7 bump) 100 = Ok ps /\ exact_solver gauss_solve /\ (4 <= 7)%nat /\ 0 <= 100.
Proof. destruct (hp_filter_returns 7 bump 100 ltac:(lia) ltac:(lra)) as (ps & E). exists ps. split; [exact E|]. split; [exact gauss_exact|]. split; [lia|lra]. Qed.

(** Shorter series are refused. *)
Theorem C52_short : forall solve n y lam, (n < 4)%nat -> hp_filter solve (Series1 n y) lam = Err ExcValue.
Proof. exact hp_filter_short. Qed.
Print Assumptions C52_short.

(** Linear trends are left unchanged by every smoothing. *)
Theorem C52_linear : forall n lam a b T, (4 <= n)%nat -> 0 <= lam -> hp_trend n lam (fun t => a + b * INR t) T ->
    forall t, (t < n)%nat -> T t = a + b * INR t.
Proof. exact hp_linear. Qed.
Print Assumptions C52_linear.

(** Two-dimensional data: every row is filtered with lam = 1600 whatever was asked... *)
Theorem C52_two_dimensions : forall solve n rows lam ps, (4 <= n)%nat -> exact_solver solve ->
    hp_filter solve (Series2 n rows) lam = Ok ps ->
    length ps = length rows /\
    forall r y T C, nth_error rows r = Some y -> nth_error ps r = Some (T, C) -> hp_trend n 1600 y T /\ forall t, T t + C t = y t.
Proof. exact hp_rows_1600. Qed.
Print Assumptions C52_two_dimensions.
Example C52_two_dimensions_nontrivial : exists ps, hp_filter gauss_solve (Series2 6 [bump; INR]) 5 = Ok ps.
Proof. apply hp_rows_return; [lia|discriminate]. Qed.

(** ... so that the requested filter is not applied. *)
Theorem C52_two_dimensions_refuted : ~ (forall n rows lam ps, (4 <= n)%nat -> 0 <= lam ->
    hp_filter gauss_solve (Series2 n rows) lam = Ok ps ->
    forall r y T C, nth_error rows r = Some y -> nth_error ps r = Some (T, C) -> hp_trend n lam y T).
Proof.
  intros H. destruct (hp_rows_return 4 [bump] 0 ltac:(lia) ltac:(discriminate)) as (ps & E).
  destruct (hp_rows_wrong gauss_solve ps gauss_exact E) as (T & C & HT & K).
  exact (K (H 4%nat [bump] 0 ps ltac:(lia) ltac:(lra) E 0%nat bump T C eq_refl HT)).
Qed.
Print Assumptions C52_two_dimensions_refuted.

(** C103. Every order k and band: a series of n > 2k dates gives n - 2k values, each a symmetric moving average of
    the 2k+1 dates around it; the weights are those of the ideal filter for periods between w1 and w2, all
    shifted by the constant which makes them sum to zero. *)
Theorem C103_moving_average : forall k w1 w2 n y len out, (2 * k < n)%nat -> bandpass k w1 w2 n y = Ok (len, out) ->
    len = (n - 2 * k)%nat /\
    exists (w : nat -> R) (c : R),
      w 0%nat = 2 / w1 - 2 / w2 - c /\
      (forall j, (1 <= j)%nat -> w j = (sin (2 * PI * INR j / w1) - sin (2 * PI * INR j / w2)) / (PI * INR j) - c) /\
      w 0%nat + 2 * rsum k (fun j => w (S j)) = 0 /\
      forall t, (t < len)%nat ->
        out t = w 0%nat * y (t + k)%nat + rsum k (fun j => w (S j) * (y (t + k - S j)%nat + y (t + k + S j)%nat)).
Proof. exact bp_spec. Qed.
Print Assumptions C103_moving_average.

(** Constants and linear trends are removed. *)
Theorem C103_linear_trend : forall k w1 w2 n y len out, (2 * k < n)%nat -> bandpass k w1 w2 n y = Ok (len, out) ->
    forall a b, (forall t, (t < n)%nat -> y t = a + b * INR t) -> forall t, (t < len)%nat -> out t = 0.
Proof. exact bp_linear_trend. Qed.
Print Assumptions C103_linear_trend.
Example C103_nontrivial : exists len out, bandpass 12 6 32 100 (fun t => 1 + 2 * INR t) = Ok (len, out).
Proof.
  unfold bandpass. destruct (Req_EM_T 6 0); [lra|]. destruct (Req_EM_T 32 0); [lra|]. cbn [orb].
  destruct (conv_valid _ _ _ _) as [len out]. exists len, out. reflexivity.
Qed.
