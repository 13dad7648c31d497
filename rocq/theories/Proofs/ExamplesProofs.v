(** Proofs about the shipped model files. *)
From Coq Require Import String Reals List ZArith Permutation Lra Lia.
From Verif Require Import Base.Prelude Base.Dict Spec.CompilerMisc Model.CompilerMisc Model.Factories Spec.Factories
  Proofs.FactoriesProofs Proofs.FactoriesFinal
  Model.ModelObject Spec.ModelObject Proofs.ModelObjectProofs Proofs.ModelObjectFinal
  Model.Examples Spec.Examples.
Import ListNotations.
Open Scope string_scope.
Open Scope list_scope.

(** ** The order of definitions does not matter *)
Lemma any_order : forall reorder keep f q sp eqs args outs,
  right_order reorder -> well_declared (file_source f) ->
  chosen_spec q = Some sp -> chosen_equations (file_source f) q = Ok eqs ->
  enough_targets (file_source f) sp eqs ->
  (keep = true -> targets_unused (file_source f) sp eqs) ->
  model_function check_sorted keep f q args = Ok outs ->
  model_function reorder keep f q args = Ok outs.
Proof.
  intros reorder keep f q sp eqs args outs [SO TOT] WD Esp Eeq ET TU H.
  unfold model_function in *.
  destruct (get_factory check_sorted (file_source f) q 0) as [ff0|] eqn:E0; [|discriminate].
  cbn [bind] in H.
  assert (G : exists ff, get_factory reorder (file_source f) q 0 = Ok ff).
  { clear H. unfold get_factory in *. rewrite Eeq, Esp in *. cbn [bind] in *.
    destruct (map_res (group_symbols (file_source f)) (sp_eqs (shift_spec sp 0))); [|discriminate].
    cbn [bind] in *.
    destruct (make_content (file_source f) (shift_spec sp 0) eqs); [|discriminate]. cbn [bind] in *.
    destruct (check_sorted (make_definitions (file_source f) (preamble_dates (shift_spec sp 0))))
      as [l|] eqn:C; [|discriminate].
    destruct (check_sorted_sorts _ _ C) as [P T].
    destruct (TOT _ _ P T) as [l'' ->]. cbn [bind]. eauto. }
  destruct G as [ff E]. rewrite E. cbn [bind].
  apply (call_values num_op1 num_op2 reorder (file_source f) q 0 sp eqs ff keep args outs SO WD Esp Eeq ET TU E).
  apply (call_values num_op1 num_op2 check_sorted (file_source f) q 0 sp eqs ff0 keep args outs
           check_sorted_sorts WD Esp Eeq ET TU E0). exact H.
Qed.

(** ** Operators *)
Lemma op_add : forall a b, num_op2 "+" (Some a) (Some b) = Ok (Some (a + b)%R).
Proof. reflexivity. Qed.
Lemma op_sub : forall a b, num_op2 "-" (Some a) (Some b) = Ok (Some (a - b)%R).
Proof. reflexivity. Qed.
Lemma op_mul : forall a b, num_op2 "*" (Some a) (Some b) = Ok (Some (a * b)%R).
Proof. reflexivity. Qed.
Lemma op_div : forall a b, b <> 0%R -> num_op2 "/" (Some a) (Some b) = Ok (Some (a / b)%R).
Proof.
  intros a b H. unfold num_op2, real_op2. simpl. destruct (Req_EM_T b 0); [contradiction|reflexivity].
Qed.
Lemma op_pow : forall a b, (0 < a)%R -> num_op2 "^" (Some a) (Some b) = Ok (Some (Rpower a b)).
Proof.
  intros a b H. unfold num_op2, real_op2, real_power. simpl.
  destruct (Rlt_dec 0 a); [reflexivity|contradiction].
Qed.
Lemma op_exp : forall a, num_op1 "exp" (Some a) = Ok (Some (exp a)).
Proof. reflexivity. Qed.
Lemma op_neg : forall a, num_op1 "-" (Some a) = Ok (Some (- a)%R).
Proof. reflexivity. Qed.

(** Positive numbers. *)
Ltac pos :=
  solve [ assumption | lra
        | unfold Rpower; apply exp_pos | apply exp_pos
        | apply Rmult_lt_0_compat; pos
        | apply Rdiv_lt_0_compat; pos
        | apply Rgt_not_eq; pos
        | apply Rlt_le; pos ].

(** ** Calibrations *)

Definition proper_file (f : file) : Prop :=
  plain_groups (src_symbols (file_source f)) equivalent_symbols /\
  distinct_symbols (src_symbols (file_source f)) /\ NoDup (dkeys (file_lines f)).

Lemma dupdate_NoDup : forall {V} (u d : dict V), NoDup (dkeys d) -> NoDup (dkeys (dupdate d u)).
Proof.
  intros V u; induction u as [|[k v] u IH]; intros d H; [exact H|].
  unfold dupdate in *. simpl. apply IH, dset_NoDup, H.
Qed.

Lemma calibration_line : forall solve f kwargs sol k e,
  right_solver solve -> proper_file f -> calibrate solve f kwargs = Ok sol ->
  dget (file_lines f) k = Some e -> ~ In k (dkeys kwargs) ->
  exists v, dget sol k = Some v /\ eval_formula num_op1 num_op2 sol e = Ok v.
Proof.
  intros solve f kwargs sol k e RS (P & D & ND) H Hk Hn.
  destruct (calibration_meaning (lit 0) nan_formula _ solve RS _ _ _ _ _ P D
              (dupdate_NoDup kwargs _ ND) H k) as [A _].
  apply A. rewrite dget_dupdate_other by exact Hn. exact Hk.
Qed.

Lemma calibration_default : forall solve f kwargs sol k g i,
  right_solver solve -> proper_file f -> calibrate solve f kwargs = Ok sol ->
  dget (file_lines f) k = None -> ~ In k (dkeys kwargs) ->
  dget (src_definitions (file_source f)) k = None ->
  declared (src_symbols (file_source f)) g i k -> g = "exogenous" -> has sol k 0.
Proof.
  intros solve f kwargs sol k g i RS (P & D & ND) H Hk Hn Hd Hg ->.
  destruct (calibration_meaning (lit 0) nan_formula _ solve RS _ _ _ _ _ P D
              (dupdate_NoDup kwargs _ ND) H k) as (_ & _ & C).
  rewrite dget_dupdate_other in C by exact Hn. 
  assert (Hd' : dget (map (fun d => (fst d, undate (snd d))) (src_definitions (file_source f))) k = None).
  { clear - Hd. induction (src_definitions (file_source f)) as [|[a b] l IH]; [reflexivity|].
    simpl in *. destruct (String.eqb k a); [discriminate|auto]. }
  destruct (C Hk Hd') as [C1 _]. specialize (C1 _ _ Hg). simpl in C1.
  destruct C1 as (v & E & V). unfold has. rewrite E. injection V as <-. reflexivity.
Qed.

(** Evaluation, one operation at a time. *)
Ltac ev1 :=
  match goal with
  | |- context [num_op2 "+" (Some ?a) (Some ?b)] => rewrite (op_add a b)
  | |- context [num_op2 "-" (Some ?a) (Some ?b)] => rewrite (op_sub a b)
  | |- context [num_op2 "*" (Some ?a) (Some ?b)] => rewrite (op_mul a b)
  | |- context [num_op2 "/" (Some ?a) (Some ?b)] => rewrite (op_div a b) by pos
  | |- context [num_op2 "^" (Some ?a) (Some ?b)] => rewrite (op_pow a b) by pos
  | |- context [num_op1 "exp" (Some ?a)] => rewrite (op_exp a)
  | |- context [num_op1 "-" (Some ?a)] => rewrite (op_neg a)
  end; cbn [bind].
Ltac line RS PF HC name H :=
  let e := fresh "e" in let v := fresh "v" in let D := fresh "D" in let E := fresh "E" in
  destruct (calibration_line _ _ _ _ name _ RS PF HC ltac:(reflexivity) H) as (v & D & E);
  revert E; unfold eval_formula, par, lit, expo, logarithm; cbn [eval bind].

(** The values that the calibration lines of the RBC files give. *)
Section RbcCalibration.
Local Open Scope R_scope.
Variables (sol : dict num) (b a d s h n zb c : R).
Hypothesis line_holds : forall name e, In name ["chi"; "z"; "rk"; "w"; "k"; "y"; "i"; "c"] ->
  dget rbc_lines name = Some e ->
  exists v, dget sol name = Some v /\ eval_formula num_op1 num_op2 sol e = Ok v.
Hypotheses (Hb : has sol "beta" b) (Ha : has sol "alpha" a) (Hd : has sol "delta" d)
  (Hs : has sol "sigma" s) (Hh : has sol "eta" h) (Hn : has sol "n" n) (Hz : has sol "zbar" zb)
  (Hc : has sol "c" c).
Hypotheses (b0 : 0 < b) (a0 : 0 < a) (a1 : a < 1) (r0 : 0 < 1 / b - 1 + d) (n0 : 0 < n) (c0 : 0 < c).

Ltac get name :=
  let v := fresh "v" in let D := fresh "D" in let E := fresh "E" in
  destruct (line_holds name _ ltac:(simpl; tauto) eq_refl) as (v & D & E);
  revert E; unfold eval_formula, par, lit, expo, logarithm; cbn [eval bind];
  unfold has in *;
  repeat match goal with H : dget sol ?k = Some (Some _) |- context [dget sol ?k] => rewrite H end;
  cbn [bind]; repeat ev1; intros E; injection E as <-.

Lemma rbc_values :
  exists rk k y,
    rk = 1 / b - 1 + d /\ k = n / Rpower (rk / a) (1 / (1 - a)) /\
    y = exp zb * Rpower k a * Rpower n (1 - a) /\ c = y - d * k /\
    has sol "z" zb /\ has sol "rk" rk /\ has sol "k" k /\ has sol "y" y /\ has sol "i" (d * k) /\
    has sol "chi" ((1 - a) * exp zb * Rpower (k / n) a / Rpower c s / Rpower n h).
Proof.
  get "z". get "rk".
  set (rk := 1 / b - 1 + d) in *.
  get "k".
  set (k := n / Rpower (rk / a) (1 / (1 - a))) in *.
  assert (k0 : 0 < k) by (unfold k; pos).
  get "y". get "i". get "w".
  set (y := exp zb * Rpower k a * Rpower n (1 - a)) in *.
  get "chi".
  assert (E : c = y - d * k).
  { destruct (line_holds "c" _ ltac:(simpl; tauto) eq_refl) as (v & D' & E').
    revert E'. unfold eval_formula, par, lit, expo, logarithm. cbn [eval bind].
    rewrite D2, D3. cbn [bind]. rewrite op_sub. intros E'. injection E' as <-. congruence. }
  exists rk, k, y. unfold has. tauto.
Qed.
End RbcCalibration.

(** ** Calls of the functions *)
Open Scope R_scope.
Local Notation ev := (eval num_op1 num_op2).
Lemma ev_num : forall r v, ev r (ENum v) = Ok v. Proof. reflexivity. Qed.
Lemma ev_sym : forall r x v, r x = Some v -> ev r (ESym x) = Ok v.
Proof. intros r x v H. simpl. rewrite H. reflexivity. Qed.
Lemma ev_app1 : forall r f a x y,
  ev r a = Ok x -> num_op1 f x = Ok y -> ev r (EApp1 f a) = Ok y.
Proof. intros r f a x y H H'. simpl. rewrite H. exact H'. Qed.
Lemma ev_app2 : forall r f a b x y z,
  ev r a = Ok x -> ev r b = Ok y -> num_op2 f x y = Ok z -> ev r (EApp2 f a b) = Ok z.
Proof. intros r f a b x y z H H' H2. simpl. rewrite H. simpl. rewrite H'. exact H2. Qed.
Lemma run_step : forall r x e l v R, ev r e = Ok v ->
  run_definitions num_op1 num_op2 (set_env r x v) l = R ->
  run_definitions num_op1 num_op2 r ((x, e) :: l) = R.
Proof. intros r x e l v R H H'. simpl. rewrite H. exact H'. Qed.
Lemma content_step : forall keep r x e l v vs, ev r e = Ok v ->
  run_content num_op1 num_op2 keep (if keep then set_env r x v else r) l = Ok vs ->
  run_content num_op1 num_op2 keep r ((x, e) :: l) = Ok (v :: vs).
Proof. intros keep r x e l v vs H H'. simpl. rewrite H. simpl. rewrite H'. reflexivity. Qed.
Lemma call_step : forall keep ff args r r' outs,
  unpack_all (map snd (ff_arguments ff)) args (fun _ => None) = Ok r ->
  run_definitions num_op1 num_op2 r (ff_preamble ff) = Ok r' ->
  run_content num_op1 num_op2 keep r' (ff_content ff) = Ok outs ->
  call num_op1 num_op2 keep ff args = Ok outs.
Proof. intros keep ff args r r' outs H H' H2. unfold call. rewrite H. simpl. rewrite H'. exact H2. Qed.

Ltac op :=
  match goal with
  | |- num_op2 "/" _ _ = _ => apply op_div; pos
  | |- num_op2 "^" _ _ = _ => apply op_pow; pos
  | |- _ => reflexivity
  end.
Ltac evaluate :=
  match goal with
  | |- ev _ (ENum _) = _ => apply ev_num
  | |- ev _ (ESym _) = _ => apply ev_sym; lazy -[IZR Rdiv Rplus Rmult Rminus Ropp Rpower exp]; reflexivity
  | |- ev _ (EApp1 _ _) = _ => eapply ev_app1; [evaluate|op]
  | |- ev _ (EApp2 _ _ _) = _ => eapply ev_app2; [evaluate|evaluate|op]
  end.
Ltac run_call :=
  eapply call_step; cbn [ff_arguments ff_preamble ff_content map snd fst];
  [ reflexivity
  | repeat (eapply run_step; [evaluate|]); reflexivity
  | repeat (eapply content_step; [evaluate|]); reflexivity ].
Ltac factory_of f q :=
  let t := eval lazy -[IZR Rdiv] in (get_factory check_sorted (file_source f) q 0) in
  match t with Ok ?g =>
    unfold model_function;
    replace (get_factory check_sorted (file_source f) q 0) with (Ok g) by (lazy -[IZR Rdiv]; reflexivity)
  end; cbn [bind].


(** Conditions of [any_order], by computation. *)
Ltac declared_tac :=
  split; [|split];
  [ apply distinct_check; vm_compute; repeat constructor; simpl; intuition discriminate
  | vm_compute; repeat constructor; simpl; intuition discriminate
  | let y := fresh in let g := fresh in let i := fresh in let Hy := fresh in let D := fresh in let E := fresh in
    intros y g i Hy (? & D & E); apply dget_In in D; apply nth_error_In in E;
    simpl in D, Hy; repeat (destruct D as [D|D]; [injection D as <- <-; simpl in E|]);
    try contradiction; intuition (subst; try discriminate; try reflexivity) ].
Ltac residual_tac :=
  let i := fresh in let t := fresh in let e := fresh in let C := fresh in
  intros i t _; split;
  [ intros e C; simpl in C; repeat (destruct C as [C|C]; [injection C as <-; simpl; intuition discriminate|]);
    contradiction
  | intros ? ? C; simpl in C; repeat (destruct C as [C|C]; [discriminate C|]); contradiction ].
Ltac target_tac :=
  let l := fresh in let r := fresh in let i := fresh in let s := fresh in let C := fresh in
  let D := fresh in let E := fresh in
  intros l r i s C (? & D & E); injection D as <-; apply nth_error_In in E; simpl in C, E;
  repeat (destruct C as [C|C]; [injection C as <- <-; simpl; intuition (subst; discriminate)|]);
  contradiction.

Lemma rbc_declared : well_declared (file_source rbc_file). Proof. declared_tac. Qed.
Lemma rbc_iid_declared : well_declared (file_source rbc_iid_file). Proof. declared_tac. Qed.
Lemma rbc_ar1_declared : well_declared (file_source rbc_ar1_file). Proof. declared_tac. Qed.
Lemma rbc_mc_declared : well_declared (file_source rbc_mc_file). Proof. declared_tac. Qed.
Lemma fiscal_declared : well_declared (file_source fiscal_file). Proof. declared_tac. Qed.
Lemma savings_declared : well_declared (file_source savings_file). Proof. declared_tac. Qed.

Ltac residual_function WD :=
  eapply any_order; [eassumption|exact WD|reflexivity|reflexivity|exact I|intros _; residual_tac|].
Ltac target_function WD :=
  eapply any_order; [eassumption|exact WD|reflexivity|reflexivity
    |let H := fresh in intros ? H; injection H as <-; simpl; lia|intros _; target_tac|].

Lemma rbc_arbitrage : forall reorder keep e z k n i e' z' k' n' i' beta sigma eta chi delta alpha rho zbar sig,
  right_order reorder ->
  0 < k -> 0 < n -> 0 < k' -> 0 < n' -> 0 < output alpha z k n - i -> 0 < output alpha z' k' n' - i' ->
  model_function reorder keep rbc_file "arbitrage"
    [reals [e]; reals [z; k]; reals [n; i]; reals [e']; reals [z'; k']; reals [n'; i'];
     reals [beta; sigma; eta; chi; delta; alpha; rho; zbar; sig]]
  = Ok (reals [chi * Rpower n eta * Rpower (output alpha z k n - i) sigma
               - (1 - alpha) * output alpha z k n / n;
               1 - beta * Rpower ((output alpha z k n - i) / (output alpha z' k' n' - i')) sigma
                   * (1 - delta + alpha * output alpha z' k' n' / k')]).
Proof.
  intros. residual_function rbc_declared. factory_of rbc_file "arbitrage".
  unfold output in *. destruct keep; run_call.
Qed.

Lemma rbc_transition : forall reorder keep e z k n i e' beta sigma eta chi delta alpha rho zbar sig,
  right_order reorder -> 0 < k -> 0 < n ->
  model_function reorder keep rbc_file "transition"
    [reals [e]; reals [z; k]; reals [n; i]; reals [e'];
     reals [beta; sigma; eta; chi; delta; alpha; rho; zbar; sig]]
  = Ok (reals [rho * z + e'; (1 - delta) * k + i]).
Proof.
  intros. target_function rbc_declared. factory_of rbc_file "transition".
  destruct keep; run_call.
Qed.

Lemma rbc_iid_arbitrage : forall reorder keep e z k n i e' z' k' n' i' beta sigma eta chi delta alpha rho zbar sig,
  right_order reorder ->
  0 < k -> 0 < n -> 0 < k' -> 0 < n' -> 0 < output alpha z k n - i -> 0 < output alpha z' k' n' - i' ->
  model_function reorder keep rbc_iid_file "arbitrage"
    [reals [e]; reals [z; k]; reals [n; i]; reals [e']; reals [z'; k']; reals [n'; i'];
     reals [beta; sigma; eta; chi; delta; alpha; rho; zbar; sig]]
  = Ok (reals [chi * Rpower n eta * Rpower (output alpha z k n - i) sigma
               - (1 - alpha) * output alpha z k n / n;
               1 - beta * Rpower ((output alpha z k n - i) / (output alpha z' k' n' - i')) sigma
                   * (1 - delta + alpha * output alpha z' k' n' / k')]).
Proof.
  intros. residual_function rbc_iid_declared. factory_of rbc_iid_file "arbitrage".
  unfold output in *. destruct keep; run_call.
Qed.

Lemma rbc_iid_transition : forall reorder keep e z k n i e' beta sigma eta chi delta alpha rho zbar sig,
  right_order reorder -> 0 < k -> 0 < n ->
  model_function reorder keep rbc_iid_file "transition"
    [reals [e]; reals [z; k]; reals [n; i]; reals [e'];
     reals [beta; sigma; eta; chi; delta; alpha; rho; zbar; sig]]
  = Ok (reals [rho * z + e'; (1 - delta) * k + i]).
Proof.
  intros. target_function rbc_iid_declared. factory_of rbc_iid_file "transition".
  destruct keep; run_call.
Qed.

Lemma rbc_ar1_arbitrage : forall reorder keep z k n i z' k' n' i' beta sigma eta chi delta alpha rho zbar sig,
  right_order reorder ->
  0 < k -> 0 < n -> 0 < k' -> 0 < n' -> 0 < output alpha z k n - i -> 0 < output alpha z' k' n' - i' ->
  model_function reorder keep rbc_ar1_file "arbitrage"
    [reals [z]; reals [k]; reals [n; i]; reals [z']; reals [k']; reals [n'; i'];
     reals [beta; sigma; eta; chi; delta; alpha; rho; zbar; sig]]
  = Ok (reals [chi * Rpower n eta * Rpower (output alpha z k n - i) sigma
               - (1 - alpha) * output alpha z k n / n;
               1 - beta * Rpower ((output alpha z k n - i) / (output alpha z' k' n' - i')) sigma
                   * (1 - delta + alpha * output alpha z' k' n' / k')]).
Proof.
  intros. residual_function rbc_ar1_declared. factory_of rbc_ar1_file "arbitrage".
  unfold output in *. destruct keep; run_call.
Qed.

Lemma rbc_ar1_transition : forall reorder keep z k n i z' beta sigma eta chi delta alpha rho zbar sig,
  right_order reorder -> 0 < k -> 0 < n ->
  model_function reorder keep rbc_ar1_file "transition"
    [reals [z]; reals [k]; reals [n; i]; reals [z'];
     reals [beta; sigma; eta; chi; delta; alpha; rho; zbar; sig]]
  = Ok (reals [(1 - delta) * k + i]).
Proof.
  intros. target_function rbc_ar1_declared. factory_of rbc_ar1_file "transition".
  destruct keep; run_call.
Qed.

Lemma rbc_mc_arbitrage : forall reorder keep e z k n i e' z' k' n' i' beta sigma eta chi delta alpha rho zbar sig,
  right_order reorder ->
  0 < k -> 0 < n -> 0 < k' -> 0 < n' -> 0 < output alpha z k n - i -> 0 < output alpha z' k' n' - i' ->
  model_function reorder keep rbc_mc_file "arbitrage"
    [reals [z; e]; reals [k]; reals [n; i]; reals [z'; e']; reals [k']; reals [n'; i'];
     reals [beta; sigma; eta; chi; delta; alpha; rho; zbar; sig]]
  = Ok (reals [chi * Rpower n eta * Rpower (output alpha z k n - i) sigma
               - (1 - alpha) * output alpha z k n / n;
               1 - beta * Rpower ((output alpha z k n - i) / (output alpha z' k' n' - i')) sigma
                   * (1 - delta + alpha * output alpha z' k' n' / k')]).
Proof.
  intros. residual_function rbc_mc_declared. factory_of rbc_mc_file "arbitrage".
  unfold output in *. destruct keep; run_call.
Qed.

Lemma rbc_mc_transition : forall reorder keep e z k n i e' z' beta sigma eta chi delta alpha rho zbar sig,
  right_order reorder -> 0 < k -> 0 < n ->
  model_function reorder keep rbc_mc_file "transition"
    [reals [z; e]; reals [k]; reals [n; i]; reals [z'; e'];
     reals [beta; sigma; eta; chi; delta; alpha; rho; zbar; sig]]
  = Ok (reals [(1 - delta) * k + i]).
Proof.
  intros. target_function rbc_mc_declared. factory_of rbc_mc_file "transition".
  destruct keep; run_call.
Qed.

(** ** Steady states of the RBC files *)
Section RbcAlgebra.
Variables (a n zb rk k : R).
Hypotheses (a0 : 0 < a) (a1 : a < 1) (n0 : 0 < n) (r0 : 0 < rk)
  (Ek : k = n / Rpower (rk / a) (1 / (1 - a))).

Lemma capital_pos : 0 < k.
Proof. rewrite Ek. pos. Qed.

Lemma capital_ratio : k / n = Rpower (rk / a) (- (1 / (1 - a))).
Proof.
  rewrite Ek, Rpower_Ropp. field. split; [apply Rgt_not_eq; unfold Rpower; apply exp_pos|lra].
Qed.

Lemma output_ratio : output a zb k n / n = exp zb * Rpower (k / n) a.
Proof.
  pose proof capital_pos as k0. unfold output.
  replace (Rpower (k / n) a) with (Rpower k a * Rpower n (- a)).
  2:{ unfold Rdiv. rewrite <- Rpower_mult_distr by (try assumption; apply Rinv_0_lt_compat; assumption).
      f_equal. rewrite Rpower_Ropp. unfold Rpower. rewrite ln_Rinv by assumption.
      rewrite <- exp_Ropp. f_equal. ring. }
  replace (1 - a) with (1 + - a) by ring. rewrite Rpower_plus, Rpower_1 by assumption. field. lra.
Qed.

Lemma return_on_capital : a * output a zb k n / k = exp zb * rk.
Proof.
  pose proof capital_pos as k0.
  replace (a * output a zb k n / k) with (a * (output a zb k n / n) / (k / n)) by (field; lra).
  rewrite output_ratio, capital_ratio, Rpower_mult.
  replace (- (1 / (1 - a)) * a) with (1 + - (1 / (1 - a))) by (field; lra).
  rewrite Rpower_plus, Rpower_1 by pos. field. split; [lra|apply Rgt_not_eq; unfold Rpower; apply exp_pos].
Qed.

Lemma labour_supply : forall c s h, 0 < c ->
  (1 - a) * exp zb * Rpower (k / n) a / Rpower c s / Rpower n h * Rpower n h * Rpower c s
  - (1 - a) * output a zb k n / n = 0.
Proof.
  intros c s h c0.
  replace ((1 - a) * output a zb k n / n) with ((1 - a) * (output a zb k n / n)) by (field; lra).
  rewrite output_ratio. field. split; apply Rgt_not_eq; unfold Rpower; apply exp_pos.
Qed.
End RbcAlgebra.

Lemma proper_rbc : proper_file rbc_file.
Proof.
  split; [|split].
  - split; [simpl; intuition discriminate|]. intros x [<-|[]] C. simpl in C. intuition discriminate.
  - apply distinct_check. vm_compute. repeat constructor; simpl; intuition discriminate.
  - vm_compute. repeat constructor; simpl; intuition discriminate.
Qed.
Lemma proper_rbc_iid : proper_file rbc_iid_file.
Proof.
  split; [|split].
  - split; [simpl; intuition discriminate|]. intros x [<-|[]] C. simpl in C. intuition discriminate.
  - apply distinct_check. vm_compute. repeat constructor; simpl; intuition discriminate.
  - vm_compute. repeat constructor; simpl; intuition discriminate.
Qed.
Lemma proper_rbc_ar1 : proper_file rbc_ar1_file.
Proof.
  split; [|split].
  - split; [simpl; intuition discriminate|]. intros x [<-|[]] C. simpl in C. intuition discriminate.
  - apply distinct_check. vm_compute. repeat constructor; simpl; intuition discriminate.
  - vm_compute. repeat constructor; simpl; intuition discriminate.
Qed.
Lemma proper_rbc_mc : proper_file rbc_mc_file.
Proof.
  split; [|split].
  - split; [simpl; intuition discriminate|]. intros x [<-|[]] C. simpl in C. intuition discriminate.
  - apply distinct_check. vm_compute. repeat constructor; simpl; intuition discriminate.
  - vm_compute. repeat constructor; simpl; intuition discriminate.
Qed.
Lemma proper_fiscal : proper_file fiscal_file.
Proof.
  split; [|split].
  - split; [simpl; intuition discriminate|]. intros x [<-|[]] C. simpl in C. intuition discriminate.
  - apply distinct_check. vm_compute. repeat constructor; simpl; intuition discriminate.
  - vm_compute. repeat constructor; simpl; intuition discriminate.
Qed.
Lemma proper_savings : proper_file savings_file.
Proof.
  split; [|split].
  - split; [simpl; intuition discriminate|]. intros x [<-|[]] C. simpl in C. intuition discriminate.
  - apply distinct_check. vm_compute. repeat constructor; simpl; intuition discriminate.
  - vm_compute. repeat constructor; simpl; intuition discriminate.
Qed.

Lemma leaves_not : forall kwargs names k, leaves kwargs names -> In k names -> ~ In k (dkeys kwargs).
Proof. intros kwargs names k H H' C. exact (H k C H'). Qed.

Lemma lines_found : forall extra name e,
  dget rbc_lines name = Some e -> dget (rbc_lines ++ extra) name = Some e.
Proof.
  intros extra name e. induction rbc_lines as [|[k v] l IH]; simpl; [discriminate|].
  destruct (String.eqb name k); [auto|exact IH].
Qed.

Lemma residuals_step : forall reorder keep f sol m s x p r,
  calibrated f sol "exogenous" = Ok m -> calibrated f sol "states" = Ok s ->
  calibrated f sol "controls" = Ok x -> calibrated f sol "parameters" = Ok p ->
  bind (model_function reorder keep f "transition" [m; s; x; m; p]) (fun g =>
    bind (model_function reorder keep f "arbitrage" [m; s; x; m; s; x; p]) (fun a =>
    Ok [("transition", minus_vec g s); ("arbitrage", a)])) = r ->
  model_residuals reorder keep f sol = r.
Proof.
  intros reorder keep f sol m s x p r H1 H2 H3 H4 H. unfold model_residuals.
  rewrite H1, H2, H3, H4. exact H.
Qed.

Lemma gv_nil : forall sol, group_vector (None : num) sol [] = [].
Proof. reflexivity. Qed.
Lemma gv_cons : forall (sol : dict num) k l r v, has sol k r -> group_vector (None : num) sol l = v ->
  group_vector (None : num) sol (k :: l) = Some r :: v.
Proof. intros sol k l r v H H'. simpl. unfold has in H. rewrite H. f_equal. exact H'. Qed.
Lemma bind_vector : forall (x : res (list string)) (l : list string) (sol : dict num) v,
  x = Ok l -> group_vector (None : num) sol l = v ->
  bind x (fun l => Ok (group_vector (None : num) sol l)) = Ok v.
Proof. intros x l sol v -> <-. reflexivity. Qed.
Ltac vector :=
  unfold calibrated; eapply bind_vector; [reflexivity|];
  repeat (eapply gv_cons; [eassumption|]); apply gv_nil.
Ltac vectors := eapply residuals_step; [vector|vector|vector|vector|].

Section RbcSteady.
Variables (solve : dict formula -> res (dict num))
  (reorder : list (sym * formula) -> res (list (sym * formula))) (keep : bool)
  (kwargs : dict formula) (sol : dict num) (b a d s h rho sig n zb c : R).
Hypotheses (RS : right_solver solve) (RO : right_order reorder)
  (HL : leaves kwargs ["chi"; "e_z"; "z"; "rk"; "w"; "k"; "y"; "i"; "c"; "p"]).
Hypotheses (Hb : has sol "beta" b) (Ha : has sol "alpha" a) (Hd : has sol "delta" d)
  (Hs : has sol "sigma" s) (Hh : has sol "eta" h) (Hrho : has sol "rho" rho) (Hsig : has sol "sig_z" sig)
  (Hn : has sol "n" n) (Hz : has sol "zbar" zb) (Hc : has sol "c" c).
Hypotheses (b0 : 0 < b) (a0 : 0 < a) (a1 : a < 1) (r0 : 0 < 1 / b - 1 + d) (n0 : 0 < n) (c0 : 0 < c).

Lemma rbc_line_holds : forall f extra, proper_file f -> file_lines f = rbc_lines ++ extra ->
  calibrate solve f kwargs = Ok sol ->
  forall name e, In name ["chi"; "z"; "rk"; "w"; "k"; "y"; "i"; "c"] ->
  dget rbc_lines name = Some e ->
  exists v, dget sol name = Some v /\ eval_formula num_op1 num_op2 sol e = Ok v.
Proof.
  intros f extra PF E HC name e Hi Hg.
  apply (calibration_line solve f kwargs sol name e RS PF HC).
  - rewrite E. apply lines_found, Hg.
  - apply (leaves_not _ _ _ HL). simpl in *. tauto.
Qed.

Lemma rbc_shock : forall f extra, proper_file f -> file_lines f = rbc_lines ++ extra ->
  calibrate solve f kwargs = Ok sol -> has sol "e_z" 0.
Proof.
  intros f extra PF E HC.
  destruct (calibration_line solve f kwargs sol "e_z" (lit 0) RS PF HC) as (v & D & V).
  - rewrite E. apply lines_found. reflexivity.
  - apply (leaves_not _ _ _ HL). simpl. tauto.
  - injection V as <-. exact D.
Qed.


Lemma rbc_states_residuals : forall f extra,
  f = rbc_file \/ f = rbc_iid_file ->
  proper_file f -> file_lines f = rbc_lines ++ extra ->
  calibrate solve f kwargs = Ok sol ->
  model_residuals reorder keep f sol
  = Ok [("transition", reals [(rho - 1) * zb; 0]);
        ("arbitrage", reals [0; 1 - b * (1 - d + exp zb * (1 / b - 1 + d))])].
Proof.
  intros f extra Hf PF E HC.
  pose proof (rbc_shock f extra PF E HC) as He.
  destruct (rbc_values sol b a d s h n zb c (rbc_line_holds f extra PF E HC) Hb Ha Hd Hs Hh Hn Hz Hc
              b0 a0 a1 r0 n0 c0) as (rk & k & y & Erk & Ek & Ey & Ec & Hz' & Hrk & Hk & Hy & Hi & Hchi).
  rewrite <- Erk in *.
  pose proof (capital_pos a n rk k n0 Ek) as k0.
  pose proof (return_on_capital a n zb rk k a0 a1 n0 r0 Ek) as Rk.
  pose proof (labour_supply a n zb rk k n0 Ek c s h c0) as Lb.
  change y with y in Ey. fold (output a zb k n) in Ey. subst y.
  assert (cp : 0 < output a zb k n - d * k) by lra.
  assert (G : forall tr ar, 
    tr = Ok (reals [rho * zb + 0; (1 - d) * k + d * k]) ->
    ar = Ok (reals [(1 - a) * exp zb * Rpower (k / n) a / Rpower c s / Rpower n h * Rpower n h
                      * Rpower (output a zb k n - d * k) s - (1 - a) * output a zb k n / n;
                    1 - b * Rpower ((output a zb k n - d * k) / (output a zb k n - d * k)) s
                      * (1 - d + a * output a zb k n / k)]) ->
    bind tr (fun g => bind ar (fun f0 =>
      Ok [("transition", minus_vec g [Some zb; Some k]); ("arbitrage", f0)]))
    = Ok [("transition", reals [(rho - 1) * zb; 0]);
          ("arbitrage", reals [0; 1 - b * (1 - d + exp zb * rk)])]).
  { intros tr ar -> ->. cbn [bind minus_vec reals map combine].
    rewrite <- Ec, Lb, Rk.
    replace (c / c) with 1 by (field; lra).
    replace (Rpower 1 s) with 1 by (unfold Rpower; rewrite ln_1, Rmult_0_r, exp_0; reflexivity).
    replace (rho * zb + 0 - zb) with ((rho - 1) * zb) by ring.
    replace ((1 - d) * k + d * k - k) with 0 by ring.
    replace (1 - b * 1 * (1 - d + exp zb * rk)) with (1 - b * (1 - d + exp zb * rk)) by ring.
    reflexivity. }
  destruct Hf as [->| ->]; vectors; apply G.
  - exact (rbc_transition reorder keep 0 zb k n (d * k) 0 b s h _ d a rho zb sig RO k0 n0).
  - exact (rbc_arbitrage reorder keep 0 zb k n (d * k) 0 zb k n (d * k) b s h _ d a rho zb sig RO
             k0 n0 k0 n0 cp cp).
  - exact (rbc_iid_transition reorder keep 0 zb k n (d * k) 0 b s h _ d a rho zb sig RO k0 n0).
  - exact (rbc_iid_arbitrage reorder keep 0 zb k n (d * k) 0 zb k n (d * k) b s h _ d a rho zb sig RO
             k0 n0 k0 n0 cp cp).
Qed.

Lemma rbc_exogenous_residuals : forall f extra,
  f = rbc_ar1_file \/ f = rbc_mc_file ->
  proper_file f -> file_lines f = rbc_lines ++ extra ->
  calibrate solve f kwargs = Ok sol ->
  model_residuals reorder keep f sol
  = Ok [("transition", reals [0]);
        ("arbitrage", reals [0; 1 - b * (1 - d + exp zb * (1 / b - 1 + d))])].
Proof.
  intros f extra Hf PF E HC.
  destruct (rbc_values sol b a d s h n zb c (rbc_line_holds f extra PF E HC) Hb Ha Hd Hs Hh Hn Hz Hc
              b0 a0 a1 r0 n0 c0) as (rk & k & y & Erk & Ek & Ey & Ec & Hz' & Hrk & Hk & Hy & Hi & Hchi).
  rewrite <- Erk in *.
  pose proof (capital_pos a n rk k n0 Ek) as k0.
  pose proof (return_on_capital a n zb rk k a0 a1 n0 r0 Ek) as Rk.
  pose proof (labour_supply a n zb rk k n0 Ek c s h c0) as Lb.
  fold (output a zb k n) in Ey. subst y.
  assert (cp : 0 < output a zb k n - d * k) by lra.
  assert (G : forall tr ar, 
    tr = Ok (reals [(1 - d) * k + d * k]) ->
    ar = Ok (reals [(1 - a) * exp zb * Rpower (k / n) a / Rpower c s / Rpower n h * Rpower n h
                      * Rpower (output a zb k n - d * k) s - (1 - a) * output a zb k n / n;
                    1 - b * Rpower ((output a zb k n - d * k) / (output a zb k n - d * k)) s
                      * (1 - d + a * output a zb k n / k)]) ->
    bind tr (fun g => bind ar (fun f0 =>
      Ok [("transition", minus_vec g [Some k]); ("arbitrage", f0)]))
    = Ok [("transition", reals [0]);
          ("arbitrage", reals [0; 1 - b * (1 - d + exp zb * rk)])]).
  { intros tr ar -> ->. cbn [bind minus_vec reals map combine].
    rewrite <- Ec, Lb, Rk.
    replace (c / c) with 1 by (field; lra).
    replace (Rpower 1 s) with 1 by (unfold Rpower; rewrite ln_1, Rmult_0_r, exp_0; reflexivity).
    replace ((1 - d) * k + d * k - k) with 0 by ring.
    replace (1 - b * 1 * (1 - d + exp zb * rk)) with (1 - b * (1 - d + exp zb * rk)) by ring.
    reflexivity. }
  destruct Hf as [->| ->].
  - vectors; apply G.
    + exact (rbc_ar1_transition reorder keep zb k n (d * k) zb b s h _ d a rho zb sig RO k0 n0).
    + exact (rbc_ar1_arbitrage reorder keep zb k n (d * k) zb k n (d * k) b s h _ d a rho zb sig RO
             k0 n0 k0 n0 cp cp).
  - assert (Hp : has sol "p" 0).
    { apply (calibration_default solve rbc_mc_file kwargs sol "p" "exogenous" 1 RS PF HC); try reflexivity.
      - apply (leaves_not _ _ _ HL). simpl. tauto.
      - exists ["z"; "p"]. split; reflexivity. }
    vectors; apply G.
    + exact (rbc_mc_transition reorder keep 0 zb k n (d * k) 0 zb b s h _ d a rho zb sig RO k0 n0).
    + exact (rbc_mc_arbitrage reorder keep 0 zb k n (d * k) 0 zb k n (d * k) b s h _ d a rho zb sig RO
             k0 n0 k0 n0 cp cp).
Qed.
End RbcSteady.
