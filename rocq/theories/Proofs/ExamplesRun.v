(** The shipped calibrations can be solved: the hypotheses of the theorems on the shipped files are met. *)
From Coq Require Import String Reals List ZArith Permutation Lra Lia.
From Verif Require Import Base.Prelude Base.Dict Spec.CompilerMisc Model.CompilerMisc Model.Factories Spec.Factories
  Proofs.FactoriesProofs Proofs.FactoriesFinal
  Model.ModelObject Spec.ModelObject Proofs.ModelObjectProofs Proofs.ModelObjectFinal
  Model.Examples Spec.Examples Proofs.ExamplesProofs Proofs.TriangularSolver Proofs.DefinitionOrder.
Import ListNotations.
Open Scope string_scope.
Open Scope list_scope.
Open Scope R_scope.

Definition example_solve : dict formula -> res (dict num) := tri_solve num_op1 num_op2.
Lemma example_solve_right : right_solver example_solve.
Proof. exact (tri_solve_right num_op1 num_op2). Qed.
Lemma example_order_right : right_order tri_order.
Proof. exact tri_order_right. Qed.

Lemma tri_step : forall fuel known l k e r v res,
  l <> [] -> pick known l = Some (k, e, r) ->
  eval num_op1 num_op2 (fun x => match x with SPar s => dget known s | SVar _ _ => None end) e = Ok v ->
  tri num_op1 num_op2 fuel (known ++ [(k, v)]) r = res ->
  tri num_op1 num_op2 (S fuel) known l = res.
Proof.
  intros fuel known l k e r v res NE P E H. destruct l as [|p l0]; [contradiction|].
  cbn [tri]. rewrite P. unfold eval_formula. rewrite E. exact H.
Qed.

Lemma op_log : forall a, 0 < a -> num_op1 "log" (Some a) = Ok (Some (ln a)).
Proof. intros a H. unfold num_op1, real_op1. simpl. destruct (Rlt_dec 0 a); [reflexivity|contradiction]. Qed.

Section Consumption.
Variables (a n zb rk k b d : R).
Hypotheses (a0 : 0 < a) (a1 : a < 1) (n0 : 0 < n) (r0 : 0 < rk)
  (Ek : k = n / Rpower (rk / a) (1 / (1 - a))) (z0 : 0 <= zb) (Hd : a * d < rk).
Lemma consumption_pos : 0 < output a zb k n - d * k.
Proof.
  pose proof (capital_pos a n rk k n0 Ek) as k0.
  pose proof (return_on_capital a n zb rk k a0 a1 n0 r0 Ek) as R.
  assert (E : output a zb k n = exp zb * rk * k / a).
  { rewrite <- R. field. lra. }
  rewrite E.
  assert (Z : 1 <= exp zb). { destruct z0 as [z|<-]; [rewrite <- exp_0; left; apply exp_increasing, z|rewrite exp_0; lra]. }
  replace (exp zb * rk * k / a - d * k) with ((exp zb * rk - a * d) * k / a) by (field; lra).
  apply Rdiv_lt_0_compat; [|exact a0]. apply Rmult_lt_0_compat; [|exact k0]. nra.
Qed.
End Consumption.

Ltac side := first [pos | match goal with C : forall x, _ -> 0 < _ |- _ => apply C end].
Ltac op' :=
  match goal with
  | |- num_op2 "/" _ _ = _ => apply op_div; first [pos | apply Rgt_not_eq; side]
  | |- num_op2 "^" _ _ = _ => apply op_pow; side
  | |- num_op1 "log" _ = _ => apply op_log; side
  | |- _ => reflexivity
  end.
Ltac evaluate' :=
  match goal with
  | |- eval _ _ _ (ENum _) = _ => apply ev_num
  | |- eval _ _ _ (ESym _) = _ =>
      apply ev_sym; lazy -[IZR Rdiv Rplus Rmult Rminus Ropp Rpower exp ln]; reflexivity
  | |- eval _ _ _ (EApp1 _ _) = _ => eapply ev_app1; [evaluate'|op']
  | |- eval _ _ _ (EApp2 _ _ _) = _ => eapply ev_app2; [evaluate'|evaluate'|op']
  end.
Ltac tri1 :=
  eapply tri_step;
  [ discriminate
  | lazy -[IZR Rdiv Rplus Rmult Rminus Ropp Rpower exp ln]; reflexivity
  | unfold par, lit, expo, logarithm; evaluate'
  | cbn [app] ].

Ltac start :=
  match goal with |- bind ?x _ = _ =>
    let y := eval lazy -[IZR Rdiv Rplus Rmult Rminus Ropp Rpower exp ln] in x in
    replace x with y by (lazy -[IZR Rdiv Rplus Rmult Rminus Ropp Rpower exp ln]; reflexivity) end;
  cbn [bind];
  match goal with |- (if ?x then _ else _) = _ => replace x with true by (vm_compute; reflexivity) end;
  cbn [List.length].

Lemma rbc_runs : forall v zb, 0 <= zb -> exists sol c,
  calibrate example_solve (rbc_version v) [("zbar", lit zb)] = Ok sol /\
  has sol "beta" (99/100) /\ has sol "alpha" (33/100) /\ has sol "delta" (25/1000) /\
  has sol "sigma" 5 /\ has sol "eta" 1 /\ has sol "rho" (8/10) /\ has sol "sig_z" (16/1000) /\
  has sol "n" (33/100) /\ has sol "zbar" zb /\ has sol "c" c /\ 0 < c.
Proof.
  intros v zb z0.
  assert (P : 0 < exp zb * Rpower (33 / 100 / Rpower ((1 / (99/100) - 1 + 25/1000) / (33/100)) (1 / (1 - 33/100))) (33/100)
                * Rpower (33/100) (1 - 33/100) - 25/1000 * (33 / 100 / Rpower ((1 / (99/100) - 1 + 25/1000) / (33/100)) (1 / (1 - 33/100)))).
  { apply (consumption_pos (33/100) (33/100) zb (1 / (99/100) - 1 + 25/1000)); try reflexivity; lra. }
  set (K := 33 / 100 / Rpower ((1 / (99/100) - 1 + 25/1000) / (33/100)) (1 / (1 - 33/100))) in *.
  assert (K0 : 0 < K) by (unfold K; pos).
  unfold calibrate, get_calibration, example_solve, tri_solve.
  destruct v; do 2 eexists;
    (split; [cbn [rbc_version]; start; do 17 tri1;
       change (33 / 100 / Rpower ((1 / (99/100) - 1 + 25/1000) / (33/100)) (1 / (1 - 33/100))) with K;
       repeat tri1; reflexivity
     | unfold has; cbn; repeat split; try reflexivity; exact P ]).
Qed.

Lemma fiscal_runs : exists sol c,
  calibrate example_solve fiscal_file [] = Ok sol /\
  has sol "beta" (95/100) /\ has sol "gamma" 2 /\ has sol "delta" (2/10) /\ has sol "alpha" (33/100) /\
  has sol "A" 1 /\ has sol "exog_tau_c" 0 /\ has sol "exog_tau_k" 0 /\ has sol "g" (2/10) /\
  has sol "c" c /\ 0 < c.
Proof.
  unfold calibrate, get_calibration, example_solve, tri_solve. do 2 eexists.
  split; [start; repeat tri1; reflexivity|]. unfold has; cbn. repeat split; try reflexivity.
  set (q := (1 / (95/100) - 1 + 2/10) / (33/100)). set (K := Rpower q (1 / (33/100 - 1))).
  assert (q1 : 7/10 < q < 1) by (unfold q; lra).
  assert (E : Rpower K (33/100) = K * q).
  { unfold K. rewrite Rpower_mult. rewrite <- (Rpower_1 q) at 3 by lra. rewrite <- Rpower_plus. f_equal. field. }
  rewrite E.
  assert (K1 : 1 < K).
  { unfold K, Rpower. rewrite <- exp_0 at 1. apply exp_increasing.
    assert (L : ln q < 0) by (rewrite <- ln_1; apply ln_increasing; lra). lra. }
  nra.
Qed.

Lemma savings_runs : exists sol, calibrate example_solve savings_file [] = Ok sol.
Proof.
  unfold calibrate, get_calibration, example_solve, tri_solve. eexists.
  start; repeat tri1; reflexivity.
Qed.
