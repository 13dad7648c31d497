(** Proofs about the calibrations of the shipped model files. *)
From Coq Require Import String Reals List ZArith Permutation Lra Lia.
From Verif Require Import Base.Prelude Base.Dict Spec.CompilerMisc Model.CompilerMisc Model.Factories Spec.Factories
  Proofs.FactoriesProofs Proofs.FactoriesFinal
  Model.ModelObject Spec.ModelObject Proofs.ModelObjectProofs Proofs.ModelObjectFinal
  Model.Examples Spec.Examples Proofs.ExamplesProofs Proofs.ExamplesFinal.
Import ListNotations.
Open Scope string_scope.
Open Scope list_scope.
Open Scope R_scope.

Lemma exp_one : forall x, exp x = 1 -> x = 0.
Proof. intros x H. apply exp_inv. rewrite exp_0. exact H. Qed.

Lemma all_zero_two : forall a b la lb,
  all_zero [(a, reals la); (b, reals lb)] <-> (forall x, In x la -> x = 0) /\ (forall x, In x lb -> x = 0).
Proof.
  intros a b la lb. split.
  - intros H. split; intros x Hx.
    + assert (E : Some x = Some 0) by (apply (H a (reals la)); [left; reflexivity|apply in_map, Hx]). congruence.
    + assert (E : Some x = Some 0) by (apply (H b (reals lb)); [right; left; reflexivity|apply in_map, Hx]). congruence.
  - intros [Ha Hb] name l x [E|[E|[]]] Hx; injection E as <- <-; apply in_map_iff in Hx;
      destruct Hx as (y & <- & Hy); f_equal; auto.
Qed.

Definition version_extra (v : version) : dict formula :=
  match v with Plain => [m_line; ("kss", lit 10)] | Iid => [m_line] | _ => m_zero_lines end.
Lemma version_lines : forall v, file_lines (rbc_version v) = rbc_lines ++ version_extra v.
Proof. intros []; reflexivity. Qed.
Lemma version_proper : forall v, proper_file (rbc_version v).
Proof. intros []; [exact proper_rbc|exact proper_rbc_iid|exact proper_rbc_ar1|exact proper_rbc_mc]. Qed.

Definition rbc_targets : list string := ["chi"; "e_z"; "z"; "rk"; "w"; "k"; "y"; "i"; "c"; "p"].

Lemma domain_value : forall f sec sol states l,
  lookup (src_symbols (file_source f)) "states" = Ok states -> drop_extra true states sec = (sec, Ok tt) ->
  sec <> [] -> (List.length states <= List.length sec)%nat ->
  eval_section (fun sol e => eval_formula num_op1 num_op2 sol e) sol sec = Ok l ->
  model_domain f sec sol = Ok (Some l).
Proof.
  intros f sec sol states l E1 E2 NE Le E3. unfold model_domain, get_domain. rewrite E1. cbn [bind].
  rewrite E2. unfold backward, finish_domain. destruct sec as [|x r]; [contradiction|].
  cbn [snd]. replace (Nat.ltb _ _) with false by (symmetry; apply Nat.ltb_ge; exact Le).
  rewrite E3. reflexivity.
Qed.

Section Rbc.
Variables (solve : dict formula -> res (dict num))
  (reorder : list (sym * formula) -> res (list (sym * formula))) (keep : bool)
  (kwargs : dict formula) (sol : dict num) (v : version) (b a d s h ro sig n zb c : R).
Hypotheses (RS : right_solver solve) (RO : right_order reorder)
  (HL : leaves kwargs rbc_targets) (HC : calibrate solve (rbc_version v) kwargs = Ok sol).
Hypotheses (Hb : has sol "beta" b) (Ha : has sol "alpha" a) (Hd : has sol "delta" d)
  (Hs : has sol "sigma" s) (Hh : has sol "eta" h) (Hro : has sol "rho" ro) (Hsig : has sol "sig_z" sig)
  (Hn : has sol "n" n) (Hz : has sol "zbar" zb) (Hc : has sol "c" c).
Hypotheses (b0 : 0 < b) (a0 : 0 < a) (a1 : a < 1) (r0 : 0 < 1 / b - 1 + d) (n0 : 0 < n) (c0 : 0 < c).

Lemma rbc_steady : exists r, model_residuals reorder keep (rbc_version v) sol = Ok r /\ (all_zero r <-> zb = 0).
Proof.
  pose proof (version_proper v) as PF. pose proof (version_lines v) as EL.
  assert (key : 1 - b * (1 - d + exp zb * (1 / b - 1 + d)) = 0 <-> zb = 0).
  { split.
    - intros H. apply exp_one.
      assert (E : b * (1 / b - 1 + d) * (exp zb - 1) = 0).
      { replace (b * (1 / b - 1 + d) * (exp zb - 1)) with (- (1 - b * (1 - d + exp zb * (1 / b - 1 + d)))) by (field; lra).
        rewrite H. ring. }
      apply Rmult_integral in E. destruct E as [E|E]; [|lra].
      apply Rmult_integral in E. lra.
    - intros ->. rewrite exp_0. field. lra. }
  destruct v.
  1, 2: exists [("transition", reals [(ro - 1) * zb; 0]); ("arbitrage", reals [0; 1 - b * (1 - d + exp zb * (1 / b - 1 + d))])].
  3, 4: exists [("transition", reals [0]); ("arbitrage", reals [0; 1 - b * (1 - d + exp zb * (1 / b - 1 + d))])].
  1, 2: split; [eapply (rbc_states_residuals solve reorder keep kwargs sol b a d s h ro sig n zb c RS RO HL Hb Ha Hd Hs Hh Hro Hsig
                  Hn Hz Hc b0 a0 a1 r0 n0 c0 (rbc_version _) _); [simpl; tauto|exact PF|exact EL|exact HC]|].
  3, 4: split; [eapply (rbc_exogenous_residuals solve reorder keep kwargs sol b a d s h ro sig n zb c RS RO HL Hb Ha Hd Hs Hh Hro Hsig
                  Hn Hz Hc b0 a0 a1 r0 n0 c0 (rbc_version _) _); [simpl; tauto|exact PF|exact EL|exact HC]|].
  all: rewrite all_zero_two; split;
    [ intros [_ H]; apply key, H; simpl; tauto
    | intros E; pose proof (proj2 key E) as K; clear key; split; intros x Hx; simpl in Hx;
      repeat (destruct Hx as [Hx|Hx]; [rewrite <- Hx; first [exact K | rewrite E; ring | reflexivity]|]); destruct Hx ].
Qed.

(** Values of the calibration, as an economy. *)
Let k := n / Rpower ((1 / b - 1 + d) / a) (1 / (1 - a)).
Definition calibrated_economy : economy :=
  Economy b s h ((1 - a) * exp zb * Rpower (k / n) a / Rpower c s / Rpower n h) d a ro zb sig.

Lemma rbc_vectors :
  0 < k /\ c = consumption calibrated_economy zb k n (d * k) /\ gross_return calibrated_economy zb k n = 1 - d + exp zb * (1 / b - 1 + d) /\
  (exists e, calibrated (rbc_version v) sol "exogenous" = Ok (exogenous_of v e zb)) /\
  calibrated (rbc_version v) sol "states" = Ok (states_of v zb k) /\
  calibrated (rbc_version v) sol "controls" = Ok (reals [n; d * k]) /\
  calibrated (rbc_version v) sol "parameters" = Ok (parameters_of calibrated_economy).
Proof.
  pose proof (version_proper v) as PF. pose proof (version_lines v) as EL.
  assert (LH : forall name e, In name ["chi"; "z"; "rk"; "w"; "k"; "y"; "i"; "c"] -> dget rbc_lines name = Some e ->
             exists w, dget sol name = Some w /\ eval_formula num_op1 num_op2 sol e = Ok w).
  { apply (rbc_line_holds solve kwargs sol RS HL (rbc_version v) (version_extra v) PF EL HC). }
  destruct (rbc_values sol b a d s h n zb c LH Hb Ha Hd Hs Hh Hn Hz Hc
              b0 a0 a1 r0 n0 c0) as (rk & k' & y & Erk & Ek & Ey & Ec & Hz' & Hrk & Hk & Hy & Hi & Hchi).
  assert (Ekk : k' = k) by (rewrite Ek, Erk; reflexivity).
  rewrite Ekk in *. clear Ekk.
  rewrite <- Erk in *.
  pose proof (capital_pos a n rk k n0 Ek) as k0.
  pose proof (return_on_capital a n zb rk k a0 a1 n0 r0 Ek) as Rk.
  split; [exact k0|]. split; [unfold consumption; simpl; rewrite Ec, Ey; reflexivity|].
  split; [unfold gross_return; simpl; rewrite Rk; reflexivity|].
  assert (He : has sol "e_z" 0).
  { apply (rbc_shock solve kwargs sol RS HL (rbc_version v) (version_extra v) PF EL HC). }
  destruct v; (split; [exists 0|]); 
    try (split; [|split]); try (cbn [rbc_version exogenous_of states_of parameters_of calibrated_economy Examples.beta Examples.sigma
           Examples.eta Examples.chi Examples.delta Examples.alpha Examples.rho Examples.zbar Examples.sig_z]; vector).
  assert (Hp : has sol "p" 0).
  { apply (calibration_default solve rbc_mc_file kwargs sol "p" "exogenous" 1 RS PF HC); try reflexivity.
    - apply (leaves_not _ _ _ HL). simpl. tauto.
    - exists ["z"; "p"]. split; reflexivity. }
  cbn [rbc_version exogenous_of]. vector.
Qed.

Lemma rbc_capital_value : 0 < k /\ has sol "z" zb /\ has sol "k" k.
Proof.
  destruct (rbc_values sol b a d s h n zb c (rbc_line_holds solve kwargs sol RS HL _ _ (version_proper v) (version_lines v) HC)
              Hb Ha Hd Hs Hh Hn Hz Hc b0 a0 a1 r0 n0 c0) as (rk & k' & y & Erk & Ek & Ey & Ec & Hz' & Hrk & Hk & Hy & Hi & Hchi).
  subst rk. split; [|split]; [|exact Hz'|].
  - exact (capital_pos a n _ k n0 eq_refl).
  - rewrite Ek in Hk. exact Hk.
Qed.

Lemma chi_pos : 0 < k -> 0 < chi calibrated_economy.
Proof.
  intros k0. simpl. pose proof (exp_pos zb). pose proof (Rpower_pos (k / n) a). pose proof (Rpower_pos c s).
  pose proof (Rpower_pos n h). pos.
Qed.

Lemma extra_line : forall name e, ~ In name (dkeys kwargs) -> dget (rbc_lines ++ version_extra v) name = Some e ->
  exists w, dget sol name = Some w /\ eval_formula num_op1 num_op2 sol e = Ok w.
Proof.
  intros name e Hk E. apply (calibration_line solve (rbc_version v) kwargs sol name e RS (version_proper v) HC); [|exact Hk].
  rewrite version_lines. exact E.
Qed.

(** exp(t) > 1 + t makes the utility of CRRA preferences smaller than the logarithm *)
Lemma crra_below_log : forall x, 0 < x -> 1 < s -> Rpower x (1 - s) / (1 - s) < ln x.
Proof.
  intros x x0 s1. unfold Rpower.
  assert (E : 1 + (1 - s) * ln x <= exp ((1 - s) * ln x)).
  { apply exp_ineq1_le. }
  apply (Rmult_lt_reg_l (s - 1)); [lra|].
  replace ((s - 1) * (exp ((1 - s) * ln x) / (1 - s))) with (- exp ((1 - s) * ln x)) by (field; lra). nra.
Qed.

Lemma rbc_rest_value : v <> Plain -> ~ In "V" (dkeys kwargs) -> 1 < s -> -1 < h -> b <> 1 ->
  exists V V', calibrated (rbc_version v) sol "values" = Ok (reals [V]) /\
    rest_value reorder keep (rbc_version v) sol = Ok (reals [V']) /\ V' < V.
Proof.
  intros NP HV s1 h1 b1.
  destruct rbc_vectors as (k0 & Ec & Eg & (e & E1) & E2 & E3 & E4).
  destruct (extra_line "V" _ HV (lines_found (version_extra v) "V" _ eq_refl)) as (w & D & E).
  revert E. unfold eval_formula, par, lit, expo, logarithm. cbn [eval bind].
  unfold has in Hc, Hb. rewrite Hc, Hb. cbn [bind].
  replace (num_op1 "log" (Some c)) with (Ok (Some (ln c)) : res num).
  2:{ unfold num_op1, real_op1. simpl. destruct (Rlt_dec 0 c); [reflexivity|contradiction]. }
  cbn [bind]. rewrite op_sub. cbn [bind]. rewrite op_div by lra. intros E. injection E as <-.
  assert (HVv : has sol "V" (ln c / (1 - b))) by exact D.
  exists (ln c / (1 - b)), (utility calibrated_economy zb k n (d * k) + b * (ln c / (1 - b))).
  assert (EV : calibrated (rbc_version v) sol "values" = Ok (reals [ln c / (1 - b)])).
  { destruct v; [contradiction| | |]; cbn [rbc_version]; vector. }
  split; [exact EV|]. split.
  - unfold rest_value. rewrite E1, E2, E3, E4, EV. cbn [bind].
    apply (value_value reorder keep v calibrated_economy); try assumption.
    + rewrite <- Ec. exact c0.
    + simpl. lra.
    + simpl. lra.
  - unfold utility. rewrite <- Ec. cbn [Examples.sigma Examples.eta].
    pose proof (chi_pos k0) as x0. pose proof (Rpower_pos n (1 + h)) as Pn.
    pose proof (crra_below_log c c0 s1) as L.
    change (sigma calibrated_economy) with s. change (eta calibrated_economy) with h.
    assert (P : 0 < chi calibrated_economy * Rpower n (1 + h) / (1 + h)) by (apply Rdiv_lt_0_compat; [pos|lra]).
    replace (ln c / (1 - b)) with (ln c + b * (ln c / (1 - b))) at 2 by (field; lra). lra.
Qed.

Lemma rbc_rest_expectation_raw : v <> Plain ->
  rest_expectation reorder keep (rbc_version v) sol
  = Ok (reals [b / Rpower c s * (1 - d + exp zb * (1 / b - 1 + d))]).
Proof.
  intros NP.
  destruct rbc_vectors as (k0 & Ec & Eg & (e & E1) & E2 & E3 & E4).
  unfold rest_expectation. rewrite E1, E2, E3, E4. cbn [bind].
  assert (c1 : 0 < consumption calibrated_economy zb k n (d * k)) by (rewrite <- Ec; exact c0).
  rewrite (expectation_value reorder keep v calibrated_economy e zb k n (d * k) NP RO k0 n0 c1).
  unfold discounted. rewrite <- Ec, Eg.
  change (sigma calibrated_economy) with s. change (beta calibrated_economy) with b.
  rewrite Rpower_Ropp. reflexivity.
Qed.

Lemma rbc_rest_expectation_zero : v = Ar1 \/ v = Mc -> ~ In "m" (dkeys kwargs) -> d <= 1 ->
  calibrated (rbc_version v) sol "expectations" = Ok (reals [0]) /\
  exists m, rest_expectation reorder keep (rbc_version v) sol = Ok (reals [m]) /\ 0 < m.
Proof.
  intros Hv Hm d1.
  assert (NP : v <> Plain) by (destruct Hv as [->| ->]; discriminate).
  split.
  - destruct (extra_line "m" (lit 0) Hm) as (w & D & E).
    { destruct Hv as [->| ->]; reflexivity. }
    injection E as <-. assert (Hm0 : has sol "m" 0) by exact D.
    destruct Hv as [->| ->]; cbn [rbc_version]; vector.
  - exists (b / Rpower c s * (1 - d + exp zb * (1 / b - 1 + d))). split; [exact (rbc_rest_expectation_raw NP)|].
    pose proof (Rpower_pos c s). pose proof (exp_pos zb).
    apply Rmult_lt_0_compat; [pos|]. assert (0 < exp zb * (1 / b - 1 + d)) by pos. lra.
Qed.

Lemma rbc_rest_expectation_iid : v = Iid -> ~ In "m" (dkeys kwargs) ->
  exists m m', calibrated (rbc_version v) sol "expectations" = Ok (reals [m]) /\
    rest_expectation reorder keep (rbc_version v) sol = Ok (reals [m']) /\ (m' = m <-> zb = 0) /\
    (zb = 0 -> m = Rpower c (- s)).
Proof.
  intros Ev Hm.
  assert (NP : v <> Plain) by (rewrite Ev; discriminate).
  destruct (rbc_values sol b a d s h n zb c (rbc_line_holds solve kwargs sol RS HL _ _ (version_proper v) (version_lines v) HC)
              Hb Ha Hd Hs Hh Hn Hz Hc b0 a0 a1 r0 n0 c0) as (rk & k' & y & Erk & Ek & Ey & Ec & Hz' & Hrk & Hk & Hy & Hi & Hchi).
  destruct (extra_line "m" (snd m_line) Hm) as (w & D & E).
  { rewrite Ev. reflexivity. }
  revert E. unfold eval_formula, m_line, snd, par, lit, expo, logarithm. cbn [eval bind].
  unfold has in Hc, Hb, Hs, Hd, Hrk. rewrite Hc, Hb, Hs, Hd, Hrk. cbn [bind].
  rewrite op_pow by exact c0. cbn [bind]. rewrite op_div by (apply Rgt_not_eq, Rpower_pos). cbn [bind].
  rewrite op_sub. cbn [bind]. rewrite op_add. cbn [bind]. rewrite op_mul. intros E. injection E as <-.
  assert (Hm0 : has sol "m" (b / Rpower c s * (1 - d + rk))) by exact D.
  exists (b / Rpower c s * (1 - d + rk)), (b / Rpower c s * (1 - d + exp zb * (1 / b - 1 + d))).
  assert (Pc : 0 < b / Rpower c s) by (pose proof (Rpower_pos c s); pos).
  split; [|split; [exact (rbc_rest_expectation_raw NP)|split]].
  - rewrite Ev. cbn [rbc_version]. vector.
  - rewrite <- Erk. split.
    + intros E. apply Rmult_eq_reg_l in E; [|lra]. apply exp_one.
      apply (Rmult_eq_reg_r rk); [lra|lra].
    + intros ->. rewrite exp_0. ring.
  - intros _. rewrite Rpower_Ropp, Erk. pose proof (Rpower_pos c s). field. lra.
Qed.

Lemma rbc_rest_response : v = Iid -> ~ In "m" (dkeys kwargs) -> zb = 0 -> s <> 0 -> h + a <> 0 ->
  calibrated (rbc_version v) sol "controls" = rest_response reorder true (rbc_version v) sol.
Proof.
  intros Ev Hm Z s0 ha.
  assert (NP : v <> Plain) by (rewrite Ev; discriminate).
  destruct rbc_vectors as (k0 & Ec & Eg & (e & E1) & E2 & E3 & E4).
  destruct (rbc_rest_expectation_iid Ev Hm) as (m & m' & E5 & _ & _ & Em).
  rewrite E3. symmetry. unfold rest_response. rewrite E1, E2, E4, E5. cbn [bind].
  pose proof (chi_pos k0) as x0.
  assert (c1 : 0 < consumption calibrated_economy zb k n (d * k)) by (rewrite <- Ec; exact c0).
  apply (direct_response_iff calibrated_economy zb k m k0); try assumption.
  - rewrite (Em Z). apply Rpower_pos.
  - split; [exact n0|]. split; [exact c1|]. split.
    + unfold labour_gap. rewrite <- Ec.
      change (sigma calibrated_economy) with s. change (eta calibrated_economy) with h.
      change (alpha calibrated_economy) with a.
      exact (labour_supply a n zb (1 / b - 1 + d) k n0 eq_refl c s h c0).
    + rewrite <- Ec, (Em Z). reflexivity.
Qed.
Lemma rbc_domain_value : 0 < sig -> 0 < ro < 1 -> ~ In "kss" (dkeys kwargs) ->
  exists dom, model_domain (rbc_version v) (version_domain v) sol = Ok (Some dom) /\
    (inside dom "k" sol <-> (v = Plain -> 5 <= k <= 15)) /\
    (v = Plain \/ v = Iid ->
       (inside dom "z" sol <-> Rabs zb <= 2 * sig / Rpower (1 - Rpower ro 2) (5/10))).
Proof.
  intros sig0 [ro0 ro1] Hkss.
  destruct rbc_capital_value as (k0 & Hz' & Hk).
  assert (W : 0 < 1 - Rpower ro 2).
  { assert (E : Rpower ro 2 = ro * ro).
    { replace 2 with (1 + 1) by ring. rewrite Rpower_plus, Rpower_1 by exact ro0. reflexivity. }
    rewrite E. nra. }
  pose proof (Rpower_pos (1 - Rpower ro 2) (5/10)) as Pw.
  assert (U : forall A (dom : dict (num * num)) name lo hi x, dget dom name = Some (Some lo, Some hi) -> has sol name x ->
              (lo <= x <= hi <-> A) -> (inside dom name sol <-> A)).
  { intros A dom name lo hi x D Hx I. rewrite <- I. split.
    - intros (lo' & hi' & x' & D' & Hx' & I'). rewrite D in D'. injection D' as <- <-.
      unfold has in *. rewrite Hx in Hx'. injection Hx' as <-. exact I'.
    - intros I'. exists lo, hi, x. auto. }
  set (bd := 2 * sig / Rpower (1 - Rpower ro 2) (5/10)).
  assert (Zf : - (2) * sig / Rpower (1 - Rpower ro 2) (5/10) <= zb <= bd <-> Rabs zb <= bd).
  { replace (- (2) * sig / Rpower (1 - Rpower ro 2) (5/10)) with (- bd) by (unfold bd; field; lra).
    split; [intros [I1 I2]; apply Rabs_le; split; assumption|].
    intros I. unfold Rabs in I. destruct (Rcase_abs zb); lra. }
  assert (Pz : eval_section (fun sol e => eval_formula num_op1 num_op2 sol e) sol [("z", productivity_bounds)]
               = Ok [("z", (Some (- (2) * sig / Rpower (1 - Rpower ro 2) (5/10)), Some bd))]).
  { unfold eval_section, productivity_bounds, eval_end, eval_formula, par, lit. cbn [eval bind].
    unfold has in Hro, Hsig. rewrite Hro, Hsig. cbn [bind]. repeat ev1. reflexivity. }
  assert (Pk : forall q lo hi x, has sol q x ->
     eval_section (fun sol e => eval_formula num_op1 num_op2 sol e) sol [("k", around q lo hi)]
     = Ok [("k", (Some (x * lo), Some (x * hi)))]).
  { intros q lo hi x Hq. unfold eval_section, around, eval_end, eval_formula, par, lit. cbn [eval bind].
    unfold has in Hq. rewrite Hq. cbn [bind]. repeat ev1. reflexivity. }
  assert (Two : forall x y lx ly, 
     eval_section (fun sol e => eval_formula num_op1 num_op2 sol e) sol [x] = Ok lx ->
     eval_section (fun sol e => eval_formula num_op1 num_op2 sol e) sol [y] = Ok ly ->
     eval_section (fun sol e => eval_formula num_op1 num_op2 sol e) sol [x; y] = Ok (lx ++ ly)).
  { intros [nx [xa xb]] y lx ly Hx Hy.
    change (eval_section (fun sol e => eval_formula num_op1 num_op2 sol e) sol [(nx, (xa, xb)); y])
      with (bind (eval_end (fun sol e => eval_formula num_op1 num_op2 sol e) sol xa) (fun x => bind (eval_end (fun sol e => eval_formula num_op1 num_op2 sol e) sol xb) (fun z =>
             bind (eval_section (fun sol e => eval_formula num_op1 num_op2 sol e) sol [y]) (fun l => Ok ((nx, (x, z)) :: l))))).
    cbn [eval_section] in Hx. rewrite Hy. revert Hx.
    destruct (eval_end _ sol xa) as [x1|]; [|discriminate]. cbn [bind].
    destruct (eval_end _ sol xb) as [x2|]; [|discriminate]. cbn [bind]. intros Hx. injection Hx as <-. reflexivity. }
  assert (Kss : v = Plain -> has sol "kss" 10).
  { intros Ev. destruct (extra_line "kss" (lit 10) Hkss) as (w & D & E); [rewrite Ev; reflexivity|].
    injection E as <-. exact D. }
  assert (Md : forall l, eval_section (fun sol e => eval_formula num_op1 num_op2 sol e) sol (version_domain v) = Ok l ->
    model_domain (rbc_version v) (version_domain v) sol = Ok (Some l)).
  { intros l El. destruct v; eapply domain_value; try exact El; try reflexivity; try discriminate; simpl; lia. }
  destruct v.
  - exists ([("z", (Some (- (2) * sig / Rpower (1 - Rpower ro 2) (5/10)), Some bd))] ++ [("k", (Some (10 * (5/10)), Some (10 * (15/10))))]).
    split; [apply Md; apply Two; [exact Pz|apply Pk, Kss, eq_refl]|]. split.
    + eapply U; [reflexivity|exact Hk|]. split; [intros I _; lra|intros I; specialize (I eq_refl); lra].
    + intros _. eapply U; [reflexivity|exact Hz'|exact Zf].
  - exists ([("z", (Some (- (2) * sig / Rpower (1 - Rpower ro 2) (5/10)), Some bd))] ++ [("k", (Some (k * (5/10)), Some (k * (15/10))))]).
    split; [apply Md; apply Two; [exact Pz|apply Pk, Hk]|]. split.
    + eapply U; [reflexivity|exact Hk|]. split; [intros _ C; discriminate C|intros _; lra].
    + intros _. eapply U; [reflexivity|exact Hz'|exact Zf].
  - exists [("k", (Some (k * (5/10)), Some (k * (15/10))))].
    split; [apply Md; apply Pk, Hk|]. split.
    + eapply U; [reflexivity|exact Hk|]. split; [intros _ C; discriminate C|intros _; lra].
    + intros [C|C]; discriminate C.
  - exists [("k", (Some (k * (2/10)), Some (k * 2)))].
    split; [apply Md; apply Pk, Hk|]. split.
    + eapply U; [reflexivity|exact Hk|]. split; [intros _ C; discriminate C|intros _; lra].
    + intros [C|C]; discriminate C.
Qed.
End Rbc.

(** ** rmt3_ch11.yaml *)
Lemma fiscal_arbitrage : forall reorder keep g xc xk k tc tk c g' xc' xk' k' tc' tk' c' b gm d a A,
  right_order reorder -> 0 < k -> 0 < k' -> 0 < c -> 0 < c' -> 1 + tc' <> 0 ->
  model_function reorder keep fiscal_file "arbitrage"
    [reals [g; xc; xk]; reals [k; tc; tk]; reals [c]; reals [g'; xc'; xk']; reals [k'; tc'; tk']; reals [c'];
     reals [b; gm; d; a; A]]
  = Ok (reals [b * Rpower (c' / c) (- gm) * (1 + tc) / (1 + tc')
               * ((1 - tk') * (a * A * Rpower k' (a - 1) - d) + 1) - 1]).
Proof.
  intros. residual_function fiscal_declared. factory_of fiscal_file "arbitrage". destruct keep; run_call.
Qed.
Lemma fiscal_transition : forall reorder keep g xc xk k tc tk c g' xc' xk' b gm d a A,
  right_order reorder -> 0 < k ->
  model_function reorder keep fiscal_file "transition"
    [reals [g; xc; xk]; reals [k; tc; tk]; reals [c]; reals [g'; xc'; xk']; reals [b; gm; d; a; A]]
  = Ok (reals [A * Rpower k a + (1 - d) * k - c - g'; xc'; xk']).
Proof.
  intros. target_function fiscal_declared. factory_of fiscal_file "transition". destruct keep; run_call.
Qed.

Lemma residuals_values : forall (tr ar : res (list num)) s g a r,
  tr = Ok g -> ar = Ok a -> Ok [("transition", minus_vec g s); ("arbitrage", a)] = r ->
  bind tr (fun g => bind ar (fun f0 => Ok [("transition", minus_vec g s); ("arbitrage", f0)])) = r.
Proof. intros tr ar s g a r -> -> H. exact H. Qed.

Ltac get_line RS PF HC HL name :=
  let v := fresh "v" in let D := fresh "D" in let E := fresh "E" in
  destruct (calibration_line _ _ _ _ name _ RS PF HC eq_refl ltac:(apply (leaves_not _ _ _ HL); simpl; tauto)) as (v & D & E);
  revert E; unfold eval_formula, par, lit, expo, logarithm; cbn [eval bind];
  unfold has in *;
  repeat match goal with H : dget ?sol ?k = Some (Some _) |- context [dget ?sol ?k] => rewrite H end;
  cbn [bind]; repeat ev1; intros E; injection E as <-.

Section Fiscal.
Variables (solve : dict formula -> res (dict num))
  (reorder : list (sym * formula) -> res (list (sym * formula))) (keep : bool)
  (kwargs : dict formula) (sol : dict num) (b gm d a A tc tk g c : R).
Hypotheses (RS : right_solver solve) (RO : right_order reorder)
  (HL : leaves kwargs ["tau_c"; "tau_k"; "k"; "c"]) (HC : calibrate solve fiscal_file kwargs = Ok sol).
Hypotheses (Hb : has sol "beta" b) (Hgm : has sol "gamma" gm) (Ha : has sol "alpha" a) (Hd : has sol "delta" d)
  (HA : has sol "A" A) (Htc : has sol "exog_tau_c" tc) (Htk : has sol "exog_tau_k" tk)
  (Hg : has sol "g" g) (Hc : has sol "c" c).
Hypotheses (b0 : 0 < b) (a0 : 0 < a) (a1 : a < 1) (r0 : 0 < 1 / b - 1 + d) (c0 : 0 < c) (t0 : 1 + tc <> 0).

Lemma fiscal_steady : exists r, model_residuals reorder keep fiscal_file sol = Ok r /\
  (all_zero r <-> A = 1 /\ (tk = 0 \/ b = 1)).
Proof.
  pose proof proper_fiscal as PF.
  assert (a2 : a - 1 <> 0) by lra.
  get_line RS PF HC HL "tau_c". get_line RS PF HC HL "tau_k". get_line RS PF HC HL "k".
  set (rk := 1 / b - 1 + d) in *.
  set (k := Rpower (rk / a) (1 / (a - 1))) in *.
  assert (k0 : 0 < k) by apply Rpower_pos.
  assert (Ec : c = Rpower k a - d * k - g).
  { destruct (calibration_line _ _ _ _ "c" _ RS PF HC eq_refl ltac:(apply (leaves_not _ _ _ HL); simpl; tauto)) as (v & D' & E).
    revert E. unfold eval_formula, par, lit. cbn [eval bind].
    rewrite D1, Ha, Hd, Hg. cbn [bind]. rewrite op_pow by exact k0. cbn [bind]. rewrite op_mul. cbn [bind].
    rewrite op_sub. cbn [bind]. rewrite op_sub. intros E. injection E as <-. congruence. }
  assert (Ek : a * A * Rpower k (a - 1) = A * rk).
  { unfold k. rewrite Rpower_inv_exp by (try (field; lra); apply Rdiv_lt_0_compat; assumption). field. lra. }
  assert (Htc' : has sol "tau_c" tc) by exact D. assert (Htk' : has sol "tau_k" tk) by exact D0.
  assert (Hk : has sol "k" k) by exact D1.
  exists [("transition", reals [(A - 1) * Rpower k a; 0; 0]);
          ("arbitrage", reals [b * ((1 - tk) * (A * rk - d) + 1) - 1])].
  split.
  - change (dget sol "gamma" = Some (Some gm)) with (has sol "gamma" gm) in Hgm.
    vectors.
    eapply residuals_values;
    [ exact (fiscal_transition reorder keep g tc tk k tc tk c g tc tk b gm d a A RO k0)
    | exact (fiscal_arbitrage reorder keep g tc tk k tc tk c g tc tk k tc tk c b gm d a A RO k0 k0 c0 c0 t0) | ].
    cbn [reals map minus_vec combine].
    rewrite Ek. replace (c / c) with 1 by (field; lra). rewrite Rpower_base_1.
    replace (b * 1 * (1 + tc) / (1 + tc) * ((1 - tk) * (A * rk - d) + 1) - 1)
      with (b * ((1 - tk) * (A * rk - d) + 1) - 1) by (field; exact t0).
    replace (A * Rpower k a + (1 - d) * k - c - g - k) with ((A - 1) * Rpower k a) by (rewrite Ec; ring).
    replace (tc - tc) with 0 by ring. replace (tk - tk) with 0 by ring. reflexivity.
  - rewrite all_zero_two. pose proof (Rpower_pos k a) as Pk. split.
    + intros [H1 H2].
      assert (HA1 : A = 1).
      { assert (E : (A - 1) * Rpower k a = 0) by (apply H1; simpl; tauto).
        apply Rmult_integral in E. lra. }
      split; [exact HA1|].
      assert (E : b * ((1 - tk) * (A * rk - d) + 1) - 1 = 0) by (apply H2; simpl; tauto).
      rewrite HA1 in E. unfold rk in E.
      assert (E' : tk * (1 - b) = 0).
      { replace (tk * (1 - b)) with (- (b * ((1 - tk) * (1 * (1 / b - 1 + d) - d) + 1) - 1)) by (field; lra).
        rewrite E. ring. }
      apply Rmult_integral in E'. lra.
    + intros [HA1 HT]. rewrite HA1. split; intros x Hx; simpl in Hx;
        repeat (destruct Hx as [Hx|Hx]; [rewrite <- Hx|]); try contradiction; try ring.
      unfold rk. destruct HT as [->| ->]; field; lra.
Qed.
End Fiscal.

(** ** consumption_savings_iid.yaml *)
Lemma savings_arbitrage : forall reorder keep y w c y' w' c' b g s ro r cb,
  right_order reorder -> 0 < c -> 0 < c' ->
  model_function reorder keep savings_file "arbitrage"
    [reals [y]; reals [w]; reals [c]; reals [y']; reals [w']; reals [c']; reals [b; g; s; ro; r; cb]]
  = Ok (reals [b * Rpower (c' / c) (- g) * r - 1]).
Proof.
  intros. residual_function savings_declared. factory_of savings_file "arbitrage". destruct keep; run_call.
Qed.
Lemma savings_transition : forall reorder keep y w c y' b g s ro r cb,
  right_order reorder ->
  model_function reorder keep savings_file "transition"
    [reals [y]; reals [w]; reals [c]; reals [y']; reals [b; g; s; ro; r; cb]]
  = Ok (reals [exp y' + (w - c) * r]).
Proof.
  intros. target_function savings_declared. factory_of savings_file "transition". destruct keep; run_call.
Qed.
Lemma savings_half : forall reorder keep y x y' b g s ro r cb,
  right_order reorder ->
  model_function reorder keep savings_file "half_transition"
    [reals [y]; reals [x]; reals [y']; reals [b; g; s; ro; r; cb]]
  = Ok (reals [exp y' + x * r]).
Proof.
  intros. target_function savings_declared. factory_of savings_file "half_transition". destruct keep; run_call.
Qed.
Lemma savings_reverse : forall reorder keep y x c b g s ro r cb,
  right_order reorder ->
  model_function reorder keep savings_file "reverse_state"
    [reals [y]; reals [x]; reals [c]; reals [b; g; s; ro; r; cb]]
  = Ok (reals [x + c]).
Proof.
  intros. target_function savings_declared. factory_of savings_file "reverse_state". destruct keep; run_call.
Qed.
Lemma savings_expectation : forall reorder keep y w c b g s ro r cb,
  right_order reorder -> 0 < c -> 0 < cb ->
  model_function reorder keep savings_file "expectation"
    [reals [y]; reals [w]; reals [c]; reals [b; g; s; ro; r; cb]]
  = Ok (reals [b * Rpower (c / cb) (- g) * r]).
Proof.
  intros. target_function savings_declared. factory_of savings_file "expectation". destruct keep; run_call.
Qed.
Lemma savings_response : forall reorder keep y x m b g s ro r cb,
  right_order reorder -> 0 < m -> g <> 0 ->
  model_function reorder keep savings_file "direct_response_egm"
    [reals [y]; reals [x]; reals [m]; reals [b; g; s; ro; r; cb]]
  = Ok (reals [cb * Rpower m (- (1) / g)]).
Proof.
  intros. target_function savings_declared. factory_of savings_file "direct_response_egm". destruct keep; run_call.
Qed.

(** End-of-period assets and the transition *)
Lemma savings_assets : forall reorder keep y w c x y' b g s ro r cb,
  right_order reorder ->
  model_function reorder keep savings_file "reverse_state"
    [reals [y]; reals [x]; reals [c]; reals [b; g; s; ro; r; cb]] = Ok (reals [w]) ->
  model_function reorder keep savings_file "half_transition"
    [reals [y]; reals [x]; reals [y']; reals [b; g; s; ro; r; cb]]
  = model_function reorder keep savings_file "transition"
    [reals [y]; reals [w]; reals [c]; reals [y']; reals [b; g; s; ro; r; cb]].
Proof.
  intros reorder keep y w c x y' b g s ro r cb RO H.
  rewrite savings_reverse in H by exact RO. injection H as E.
  rewrite savings_half, savings_transition by exact RO. rewrite <- E.
  replace (x + c - c) with x by ring. reflexivity.
Qed.

Lemma savings_euler : forall reorder keep y w x c m b g s ro r cb (law : list (R * (R * R * R))) (q e : R * R * R -> R),
  right_order reorder -> 0 < c -> 0 < cb -> 0 < m -> g <> 0 -> total law = 1 ->
  (forall p y' w' c', In (p, (y', w', c')) law -> 0 < c' /\
     model_function reorder keep savings_file "expectation"
       [reals [y']; reals [w']; reals [c']; reals [b; g; s; ro; r; cb]] = Ok (reals [q (y', w', c')]) /\
     model_function reorder keep savings_file "arbitrage"
       [reals [y]; reals [w]; reals [c]; reals [y']; reals [w']; reals [c']; reals [b; g; s; ro; r; cb]]
     = Ok (reals [e (y', w', c')])) ->
  m = mean q law ->
  (model_function reorder keep savings_file "direct_response_egm"
     [reals [y]; reals [x]; reals [m]; reals [b; g; s; ro; r; cb]] = Ok (reals [c])
   <-> mean e law = 0).
Proof.
  intros reorder keep y w x c m b g s ro r cb law q e RO c0 cb0 m0 g0 T H Em.
  set (t := Rpower (c / cb) g).
  assert (t0 : 0 < t) by apply Rpower_pos.
  assert (E : forall o, In o law -> e (snd o) = - 1 - (- t) * q (snd o)).
  { intros [p [[y' w'] c']] Ho. destruct (H _ _ _ _ Ho) as (c0' & Hq & He). cbn [snd].
    rewrite savings_expectation in Hq by assumption. rewrite savings_arbitrage in He by assumption.
    injection Hq as <-. injection He as <-.
    replace (Rpower (c' / c) (- g)) with (t * Rpower (c' / cb) (- g)); [ring|].
    unfold t, Rpower. rewrite <- exp_plus. f_equal. unfold Rdiv.
    rewrite !ln_mult by (try assumption; apply Rinv_0_lt_compat; assumption).
    rewrite !ln_Rinv by assumption. ring. }
  assert (M : mean e law = t * m - 1).
  { rewrite (mean_ext e (fun o => - 1 - (- t) * q o)) by exact E.
    rewrite (mean_linear (A := R * R * R) q (- 1) (- t) law), T, <- Em. ring. }
  rewrite M, savings_response by assumption.
  assert (K : cb * Rpower m (- (1) / g) = c <-> t * m - 1 = 0).
  { split; intros K.
    - unfold t. rewrite <- K. replace (cb * Rpower m (- (1) / g) / cb) with (Rpower m (- (1) / g)) by (field; lra).
      rewrite Rpower_mult. replace (- (1) / g * g) with (- (1)) by (field; exact g0).
      rewrite Rpower_Ropp, Rpower_1 by exact m0. field. lra.
    - assert (Em' : m = Rpower (c / cb) (- g)).
      { rewrite Rpower_Ropp. fold t. apply (Rmult_eq_reg_l t); [|lra].
        replace (t * / t) with 1 by (field; lra). lra. }
      rewrite Em', Rpower_inv_exp by (try (apply Rdiv_lt_0_compat; assumption); field; exact g0). field. lra. }
  rewrite <- K. split; [intros I; injection I as I; exact I|intros ->; reflexivity].
Qed.

Section Savings.
Variables (solve : dict formula -> res (dict num))
  (reorder : list (sym * formula) -> res (list (sym * formula))) (keep : bool)
  (kwargs : dict formula) (sol : dict num) (b g s ro r w : R).
Hypotheses (RS : right_solver solve) (RO : right_order reorder)
  (HL : leaves kwargs ["cbar"; "c"; "y"]) (HC : calibrate solve savings_file kwargs = Ok sol).
Hypotheses (Hb : has sol "β" b) (Hg : has sol "γ" g) (Hs : has sol "σ" s) (Hro : has sol "ρ" ro)
  (Hr : has sol "r" r) (Hw : has sol "w" w) (w0 : 0 < w).

Lemma savings_residuals : model_residuals reorder keep savings_file sol
  = Ok [("transition", reals [1 - w * (1 - r / 10)]); ("arbitrage", reals [b * r - 1])].
Proof.
  pose proof proper_savings as PF.
  assert (Hy : has sol "y" 0).
  { apply (calibration_default solve savings_file kwargs sol "y" "exogenous" 0 RS PF HC); try reflexivity.
    - apply (leaves_not _ _ _ HL). simpl. tauto.
    - exists ["y"]. split; reflexivity. }
  get_line RS PF HC HL "c". get_line RS PF HC HL "cbar".
  assert (Hc : has sol "c" (9 / 10 * w)) by exact D. assert (Hcb : has sol "cbar" (9 / 10 * w)) by exact D0.
  set (c := 9 / 10 * w) in *. assert (c0 : 0 < c) by (unfold c; lra).
  vectors.
  eapply residuals_values;
  [ exact (savings_transition reorder keep 0 w c 0 b g s ro r c RO)
  | exact (savings_arbitrage reorder keep 0 w c 0 w c b g s ro r c RO c0 c0) | ].
  cbn [reals map minus_vec combine].
  replace (c / c) with 1 by (field; lra). rewrite Rpower_base_1, exp_0.
  replace (1 + (w - c) * r - w) with (1 - w * (1 - r / 10)) by (unfold c; field).
  replace (b * 1 * r - 1) with (b * r - 1) by ring. reflexivity.
Qed.

Lemma savings_steady : exists res, model_residuals reorder keep savings_file sol = Ok res /\
  (all_zero res <-> w * (1 - r / 10) = 1 /\ b * r = 1).
Proof.
  eexists. split; [exact savings_residuals|]. rewrite all_zero_two. split.
  - intros [H1 H2]. specialize (H1 _ (or_introl eq_refl)). specialize (H2 _ (or_introl eq_refl)). lra.
  - intros [H1 H2]. split; intros x Hx; simpl in Hx; destruct Hx as [Hx|[]]; rewrite <- Hx; lra.
Qed.
End Savings.

(** The shipped calibration of the savings model *)
Lemma savings_shipped : forall solve reorder keep sol,
  right_solver solve -> right_order reorder -> calibrate solve savings_file [] = Ok sol ->
  model_residuals reorder keep savings_file sol
  = Ok [("transition", reals [102 / 1000]); ("arbitrage", reals [- 208 / 10000])].
Proof.
  intros solve reorder keep sol RS RO HC.
  assert (L : forall name e, dget (file_lines savings_file) name = Some e ->
    exists v, dget sol name = Some v /\ eval_formula num_op1 num_op2 sol e = Ok v).
  { intros name e E. apply (calibration_line solve savings_file [] sol name e RS proper_savings HC E). simpl. tauto. }
  assert (N : forall name x, dget (file_lines savings_file) name = Some (lit x) -> has sol name x).
  { intros name x E. destruct (L name _ E) as (v & D & V). injection V as <-. exact D. }
  rewrite (savings_residuals solve reorder keep [] sol (96/100) 4 (1/10) 0 (102/100) 1 RS RO); try (apply N; reflexivity);
    try assumption; try lra.
  - replace (1 - 1 * (1 - 102 / 100 / 10)) with (102 / 1000) by field.
    replace (96 / 100 * (102 / 100) - 1) with (- 208 / 10000) by field. reflexivity.
  - intros x [].
Qed.
