(** Properties C129 to C134: what the shipped model files (examples/models) promise.
    Each theorem holds for any triangular solver of calibrations ([right_solver]), any sorting of the
    definitions ([right_order]). *)
From Coq Require Import String Reals List ZArith Lra.
From Verif Require Import Base.Prelude Base.Dict Model.Factories Model.ModelObject
  Model.Examples Spec.Examples Proofs.ExamplesProofs Proofs.ExamplesFinal Proofs.ExamplesCalib
  Proofs.DefinitionOrder Proofs.ExamplesRun Proofs.ExamplesEnd.
Import ListNotations.
Open Scope string_scope.
Open Scope list_scope.
Open Scope R_scope.

(** ** C129: the calibrated values are a steady state *)

(** The four RBC files, after [set_calibration] with keywords that leave the computed names: the
    calibration is a steady state if and only if zbar is zero. *)
Theorem C129_rbc_partial : forall solve reorder keep kwargs sol v b a d s h ro sig n zb c,
  right_solver solve -> right_order reorder ->
  leaves kwargs ["chi"; "e_z"; "z"; "rk"; "w"; "k"; "y"; "i"; "c"; "p"] ->
  calibrate solve (rbc_version v) kwargs = Ok sol ->
  has sol "beta" b -> has sol "alpha" a -> has sol "delta" d -> has sol "sigma" s -> has sol "eta" h ->
  has sol "rho" ro -> has sol "sig_z" sig -> has sol "n" n -> has sol "zbar" zb -> has sol "c" c ->
  0 < b -> 0 < a -> a < 1 -> 0 < 1 / b - 1 + d -> 0 < n -> 0 < c ->
  exists r, model_residuals reorder keep (rbc_version v) sol = Ok r /\ (all_zero r <-> zb = 0).
Proof. exact rbc_steady. Qed.
Print Assumptions C129_rbc_partial.

(** In particular the shipped calibrations are steady states, and those with another zbar are not. *)
Theorem C129_rbc_shipped : forall v zb, 0 <= zb -> exists sol r,
  calibrate example_solve (rbc_version v) [("zbar", lit zb)] = Ok sol /\
  model_residuals tri_order true (rbc_version v) sol = Ok r /\ (all_zero r <-> zb = 0).
Proof. exact rbc_shipped. Qed.
Print Assumptions C129_rbc_shipped.

(** rmt3_ch11.yaml: a steady state if and only if A is one, and there is no tax on capital (or no
    impatience). *)
Theorem C129_fiscal_partial : forall solve reorder keep kwargs sol b gm d a A tc tk g c,
  right_solver solve -> right_order reorder -> leaves kwargs ["tau_c"; "tau_k"; "k"; "c"] ->
  calibrate solve fiscal_file kwargs = Ok sol ->
  has sol "beta" b -> has sol "gamma" gm -> has sol "alpha" a -> has sol "delta" d -> has sol "A" A ->
  has sol "exog_tau_c" tc -> has sol "exog_tau_k" tk -> has sol "g" g -> has sol "c" c ->
  0 < b -> 0 < a -> a < 1 -> 0 < 1 / b - 1 + d -> 0 < c -> 1 + tc <> 0 ->
  exists r, model_residuals reorder keep fiscal_file sol = Ok r /\ (all_zero r <-> A = 1 /\ (tk = 0 \/ b = 1)).
Proof. exact fiscal_steady. Qed.
Print Assumptions C129_fiscal_partial.

Example C129_fiscal_example : exists sol r, calibrate example_solve fiscal_file [] = Ok sol /\
  model_residuals tri_order true fiscal_file sol = Ok r /\ all_zero r.
Proof. exact fiscal_shipped. Qed.

(** consumption_savings_iid.yaml: never with the shipped calibration. *)
Theorem C129_savings_partial : forall solve reorder keep kwargs sol b g s ro r w,
  right_solver solve -> right_order reorder -> leaves kwargs ["cbar"; "c"; "y"] ->
  calibrate solve savings_file kwargs = Ok sol ->
  has sol "β" b -> has sol "γ" g -> has sol "σ" s -> has sol "ρ" ro -> has sol "r" r -> has sol "w" w -> 0 < w ->
  exists res, model_residuals reorder keep savings_file sol = Ok res /\
    (all_zero res <-> w * (1 - r / 10) = 1 /\ b * r = 1).
Proof. exact savings_steady. Qed.
Print Assumptions C129_savings_partial.

Theorem C129_savings_refuted : forall solve reorder keep sol,
  right_solver solve -> right_order reorder -> calibrate solve savings_file [] = Ok sol ->
  model_residuals reorder keep savings_file sol
  = Ok [("transition", reals [102 / 1000]); ("arbitrage", reals [- 208 / 10000])].
Proof. exact savings_shipped. Qed.
Print Assumptions C129_savings_refuted.

Example C129_savings_example : right_solver example_solve /\ right_order tri_order /\
  exists sol, calibrate example_solve savings_file [] = Ok sol.
Proof. exact (conj example_solve_right (conj example_order_right savings_runs)). Qed.

(** ** C130: the direct response solves the arbitrage equations *)
Theorem C130_response : forall p z k m reorder v e n i,
  0 < k -> 0 < m -> 0 < chi p -> alpha p < 1 -> sigma p <> 0 -> eta p + alpha p <> 0 ->
  v <> Plain -> right_order reorder ->
  (model_function reorder true (rbc_version v) "direct_response"
     [exogenous_of v e z; states_of v z k; reals [m]; parameters_of p] = Ok (reals [n; i]) <->
   0 < n /\ 0 < consumption p z k n i /\ labour_gap p z k n i = 0 /\
   Rpower (consumption p z k n i) (- sigma p) = m).
Proof. exact response_iff. Qed.
Print Assumptions C130_response.

(** With m the mean of the expectation equation over a law of tomorrow's outcomes, the controls are the
    direct response if and only if the first arbitrage equation is zero for each outcome, and the
    second is zero in mean. *)
Theorem C130_expected :
  forall reorder keep v p e z k m n i (law : list (R * (R * R * R * R * R))) (q g1 g2 : R * R * R * R * R -> R),
  v <> Plain -> right_order reorder ->
  0 < k -> 0 < m -> 0 < chi p -> alpha p < 1 -> sigma p <> 0 -> eta p + alpha p <> 0 ->
  0 < n -> 0 < consumption p z k n i ->
  total law = 1 -> law <> [] ->
  (forall w e' z' k' n' i', In (w, (e', z', k', n', i')) law ->
     0 < k' /\ 0 < n' /\ 0 < consumption p z' k' n' i') ->
  (forall w e' z' k' n' i', In (w, (e', z', k', n', i')) law ->
     model_function reorder keep (rbc_version v) "expectation"
       [exogenous_of v e' z'; states_of v z' k'; reals [n'; i']; parameters_of p]
     = Ok (reals [q (e', z', k', n', i')])) ->
  (forall w e' z' k' n' i', In (w, (e', z', k', n', i')) law ->
     model_function reorder keep (rbc_version v) "arbitrage"
       [exogenous_of v e z; states_of v z k; reals [n; i];
        exogenous_of v e' z'; states_of v z' k'; reals [n'; i']; parameters_of p]
     = Ok (reals [g1 (e', z', k', n', i'); g2 (e', z', k', n', i')])) ->
  m = mean q law ->
  (model_function reorder true (rbc_version v) "direct_response"
     [exogenous_of v e z; states_of v z k; reals [m]; parameters_of p] = Ok (reals [n; i]) <->
   (forall o, In o law -> g1 (snd o) = 0) /\ mean g2 law = 0).
Proof. exact expected_response. Qed.
Print Assumptions C130_expected.

Example C130_example : forall v, v <> Plain ->
  let p := Economy (1/2) 2 1 1 (1/2) (1/2) 0 0 1 in
  let law : list (R * (R * R * R * R * R)) := [(1/4, (0, 0, 1, 1, 1/2)); (3/4, (1, 1, 1, 1, 1/2))] in
  exists (q g1 g2 : R * R * R * R * R -> R),
  right_order tri_order /\ 0 < mean q law /\ 0 < consumption p 0 1 1 (1/2) /\ total law = 1 /\
  (forall w e' z' k' n' i', In (w, (e', z', k', n', i')) law ->
     0 < k' /\ 0 < n' /\ 0 < consumption p z' k' n' i') /\
  (forall w e' z' k' n' i', In (w, (e', z', k', n', i')) law ->
     model_function tri_order true (rbc_version v) "expectation"
       [exogenous_of v e' z'; states_of v z' k'; reals [n'; i']; parameters_of p]
     = Ok (reals [q (e', z', k', n', i')])) /\
  (forall w e' z' k' n' i', In (w, (e', z', k', n', i')) law ->
     model_function tri_order true (rbc_version v) "arbitrage"
       [exogenous_of v 0 0; states_of v 0 1; reals [1; 1/2];
        exogenous_of v e' z'; states_of v z' k'; reals [n'; i']; parameters_of p]
     = Ok (reals [g1 (e', z', k', n', i'); g2 (e', z', k', n', i')])).
Proof. exact response_example. Qed.

(** At the calibrated values of rbc_iid.yaml, the response is the calibrated controls. *)
Theorem C130_calibration : forall solve reorder kwargs sol b a d s h ro sig n c,
  right_solver solve -> right_order reorder ->
  leaves kwargs ["m"; "chi"; "e_z"; "z"; "rk"; "w"; "k"; "y"; "i"; "c"; "p"] ->
  calibrate solve rbc_iid_file kwargs = Ok sol ->
  has sol "beta" b -> has sol "alpha" a -> has sol "delta" d -> has sol "sigma" s -> has sol "eta" h ->
  has sol "rho" ro -> has sol "sig_z" sig -> has sol "n" n -> has sol "zbar" 0 -> has sol "c" c ->
  0 < b -> 0 < a -> a < 1 -> 0 < 1 / b - 1 + d -> 0 < n -> 0 < c -> s <> 0 -> h + a <> 0 ->
  calibrated rbc_iid_file sol "controls" = rest_response reorder true rbc_iid_file sol.
Proof. exact iid_response. Qed.
Print Assumptions C130_calibration.

(** ** C131: values and expectations *)

(** The value equation is the felicity plus the discounted value of tomorrow. *)
Theorem C131_value : forall reorder keep v p e z k n i V e' z' k' n' i' V',
  v <> Plain -> right_order reorder -> 0 < k -> 0 < n -> 0 < consumption p z k n i -> 0 < k' -> 0 < n' ->
  1 - sigma p <> 0 -> 1 + eta p <> 0 ->
  exists u,
  model_function reorder keep (rbc_version v) "felicity"
    [exogenous_of v e z; states_of v z k; reals [n; i]; parameters_of p] = Ok (reals [u]) /\
  model_function reorder keep (rbc_version v) "value"
    [exogenous_of v e z; states_of v z k; reals [n; i]; reals [V];
     exogenous_of v e' z'; states_of v z' k'; reals [n'; i']; reals [V']; parameters_of p]
  = Ok (reals [u + beta p * V']) /\
  u = utility p z k n i.
Proof. exact value_felicity. Qed.
Print Assumptions C131_value.

Example C131_example : let p := Economy (1/2) 2 1 1 (1/2) (1/2) 0 0 1 in
  right_order tri_order /\ 0 < consumption p 0 1 1 (1/2) /\ 1 - sigma p <> 0 /\ 1 + eta p <> 0.
Proof. exact value_example. Qed.

(** The calibrated value is not the value of the steady state: with sigma above one, the value
    equation at the calibrated values always gives less. *)
Theorem C131_steady_value_refuted : forall solve reorder keep kwargs sol v b a d s h ro sig n zb c,
  right_solver solve -> right_order reorder ->
  leaves kwargs ["V"; "chi"; "e_z"; "z"; "rk"; "w"; "k"; "y"; "i"; "c"; "p"] ->
  calibrate solve (rbc_version v) kwargs = Ok sol ->
  has sol "beta" b -> has sol "alpha" a -> has sol "delta" d -> has sol "sigma" s -> has sol "eta" h ->
  has sol "rho" ro -> has sol "sig_z" sig -> has sol "n" n -> has sol "zbar" zb -> has sol "c" c ->
  0 < b -> 0 < a -> a < 1 -> 0 < 1 / b - 1 + d -> 0 < n -> 0 < c ->
  v <> Plain -> 1 < s -> -1 < h -> b <> 1 ->
  exists V V', calibrated (rbc_version v) sol "values" = Ok (reals [V]) /\
    rest_value reorder keep (rbc_version v) sol = Ok (reals [V']) /\ V' < V.
Proof. exact steady_value_refuted. Qed.
Print Assumptions C131_steady_value_refuted.

(** The calibrated expectation: right in rbc_iid.yaml if and only if zbar is zero, and wrong in the
    two other files, whatever the parameters. *)
Theorem C131_expectation_partial : forall solve reorder keep kwargs sol b a d s h ro sig n zb c,
  right_solver solve -> right_order reorder ->
  leaves kwargs ["m"; "chi"; "e_z"; "z"; "rk"; "w"; "k"; "y"; "i"; "c"; "p"] ->
  calibrate solve rbc_iid_file kwargs = Ok sol ->
  has sol "beta" b -> has sol "alpha" a -> has sol "delta" d -> has sol "sigma" s -> has sol "eta" h ->
  has sol "rho" ro -> has sol "sig_z" sig -> has sol "n" n -> has sol "zbar" zb -> has sol "c" c ->
  0 < b -> 0 < a -> a < 1 -> 0 < 1 / b - 1 + d -> 0 < n -> 0 < c ->
  exists m m', calibrated rbc_iid_file sol "expectations" = Ok (reals [m]) /\
    rest_expectation reorder keep rbc_iid_file sol = Ok (reals [m']) /\ (m' = m <-> zb = 0).
Proof. exact iid_expectation. Qed.
Print Assumptions C131_expectation_partial.

Theorem C131_expectation_refuted : forall solve reorder keep kwargs sol v b a d s h ro sig n zb c,
  right_solver solve -> right_order reorder ->
  leaves kwargs ["m"; "chi"; "e_z"; "z"; "rk"; "w"; "k"; "y"; "i"; "c"; "p"] ->
  calibrate solve (rbc_version v) kwargs = Ok sol ->
  has sol "beta" b -> has sol "alpha" a -> has sol "delta" d -> has sol "sigma" s -> has sol "eta" h ->
  has sol "rho" ro -> has sol "sig_z" sig -> has sol "n" n -> has sol "zbar" zb -> has sol "c" c ->
  0 < b -> 0 < a -> a < 1 -> 0 < 1 / b - 1 + d -> 0 < n -> 0 < c ->
  v = Ar1 \/ v = Mc -> d <= 1 ->
  calibrated (rbc_version v) sol "expectations" = Ok (reals [0]) /\
  exists m, rest_expectation reorder keep (rbc_version v) sol = Ok (reals [m]) /\ 0 < m.
Proof. exact expectation_refuted. Qed.
Print Assumptions C131_expectation_refuted.

(** The hypotheses of the theorems above on calibrations are met by the four files. *)
Example C131_calibration_example : forall v zb, 0 <= zb -> exists sol c,
  right_solver example_solve /\
  leaves [("zbar", lit zb)] ["V"; "m"; "chi"; "e_z"; "z"; "rk"; "w"; "k"; "y"; "i"; "c"; "p"] /\
  calibrate example_solve (rbc_version v) [("zbar", lit zb)] = Ok sol /\
  has sol "beta" (99/100) /\ has sol "alpha" (33/100) /\ has sol "delta" (25/1000) /\
  has sol "sigma" 5 /\ has sol "eta" 1 /\ has sol "rho" (8/10) /\ has sol "sig_z" (16/1000) /\
  has sol "n" (33/100) /\ has sol "zbar" zb /\ has sol "c" c /\ 0 < c /\
  0 < 1 / (99/100) - 1 + 25/1000.
Proof. exact calibration_example. Qed.

(** ** C132: the equations for endogenous grid points agree with the others *)

(** consumption_savings_iid.yaml: with end-of-period assets which give the state back, both
    transitions are the same. *)
Theorem C132_assets : forall reorder keep y w c x y' b g s ro r cb,
  right_order reorder ->
  model_function reorder keep savings_file "reverse_state"
    [reals [y]; reals [x]; reals [c]; reals [b; g; s; ro; r; cb]] = Ok (reals [w]) ->
  model_function reorder keep savings_file "half_transition"
    [reals [y]; reals [x]; reals [y']; reals [b; g; s; ro; r; cb]]
  = model_function reorder keep savings_file "transition"
    [reals [y]; reals [w]; reals [c]; reals [y']; reals [b; g; s; ro; r; cb]].
Proof. exact savings_assets. Qed.
Print Assumptions C132_assets.
Example C132_assets_example : model_function tri_order true savings_file "reverse_state"
    [reals [0]; reals [1]; reals [2]; reals [1; 1; 1; 1; 1; 1]] = Ok (reals [1 + 2]).
Proof. exact (savings_reverse tri_order true 0 1 2 1 1 1 1 1 1 example_order_right). Qed.

(** The response to the mean of the expectation equation is the consumption whose arbitrage residual
    is zero in mean. *)
Theorem C132_euler :
  forall reorder keep y w x c m b g s ro r cb (law : list (R * (R * R * R))) (q e : R * R * R -> R),
  right_order reorder -> 0 < c -> 0 < cb -> 0 < m -> g <> 0 -> total law = 1 ->
  (forall p y' w' c', In (p, (y', w', c')) law -> 0 < c' /\
     model_function reorder keep savings_file "expectation"
       [reals [y']; reals [w']; reals [c']; reals [b; g; s; ro; r; cb]] = Ok (reals [q (y', w', c')]) /\
     model_function reorder keep savings_file "arbitrage"
       [reals [y]; reals [w]; reals [c]; reals [y']; reals [w']; reals [c']; reals [b; g; s; ro; r; cb]]
     = Ok (reals [e (y', w', c')])) ->
  m = mean q law ->
  (model_function reorder keep savings_file "direct_response_egm"
     [reals [y]; reals [x]; reals [m]; reals [b; g; s; ro; r; cb]] = Ok (reals [c])
   <-> mean e law = 0).
Proof. exact savings_euler. Qed.
Print Assumptions C132_euler.

Example C132_euler_example :
  let law : list (R * (R * R * R)) := [(1/4, (0, 1, 1)); (3/4, (1, 2, 2))] in
  exists (q e : R * R * R -> R), total law = 1 /\ 0 < mean q law /\
  (forall p y' w' c', In (p, (y', w', c')) law -> 0 < c' /\
     model_function tri_order true savings_file "expectation"
       [reals [y']; reals [w']; reals [c']; reals [1/2; 2; 1; 1; 3/2; 1]] = Ok (reals [q (y', w', c')]) /\
     model_function tri_order true savings_file "arbitrage"
       [reals [0]; reals [2]; reals [1]; reals [y']; reals [w']; reals [c']; reals [1/2; 2; 1; 1; 3/2; 1]]
     = Ok (reals [e (y', w', c')])).
Proof. exact euler_example. Qed.

(** ** C133: with logarithmic utility and full depreciation, constant labour and a constant saving
    rate solve the four RBC files at each state, for each shock *)
Theorem C133_brock_mirman : forall reorder keep v p e z k n e' z' k',
  right_order reorder -> sigma p = 1 -> delta p = 1 ->
  0 < alpha p < 1 -> 0 < beta p -> alpha p * beta p < 1 ->
  0 < k -> 0 < n -> chi p * Rpower n (1 + eta p) = (1 - alpha p) / (1 - alpha p * beta p) ->
  let invest z k := alpha p * beta p * output (alpha p) z k n in
  (v = Plain \/ v = Iid -> z' = rho p * z + e') ->
  model_function reorder keep (rbc_version v) "transition"
    [exogenous_of v e z; states_of v z k; reals [n; invest z k]; exogenous_of v e' z'; parameters_of p]
  = Ok (states_of v z' k') ->
  model_function reorder keep (rbc_version v) "arbitrage"
    [exogenous_of v e z; states_of v z k; reals [n; invest z k];
     exogenous_of v e' z'; states_of v z' k'; reals [n; invest z' k']; parameters_of p]
  = Ok (reals [0; 0]).
Proof. exact brock_mirman. Qed.
Print Assumptions C133_brock_mirman.

Example C133_example : forall v, let p := Economy (1/2) 1 1 (2/3) 1 (1/2) 0 0 1 in
  chi p * Rpower 1 (1 + eta p) = (1 - alpha p) / (1 - alpha p * beta p) /\
  model_function tri_order true (rbc_version v) "transition"
    [exogenous_of v 0 0; states_of v 0 1; reals [1; 1/2 * (1/2) * output (1/2) 0 1 1]; exogenous_of v 1 1; parameters_of p]
  = Ok (states_of v 1 ((1 - 1) * 1 + 1/2 * (1/2) * output (1/2) 0 1 1)).
Proof. exact brock_example. Qed.

(** ** C134: the domain contains the calibrated states *)

(** Capital is in its interval, except for rbc.yaml whose interval does not follow the calibration;
    productivity is in its interval if and only if zbar is small. *)
Theorem C134_domain_partial : forall solve kwargs sol v b a d s h ro sig n zb c,
  right_solver solve ->
  leaves kwargs ["kss"; "chi"; "e_z"; "z"; "rk"; "w"; "k"; "y"; "i"; "c"; "p"] ->
  calibrate solve (rbc_version v) kwargs = Ok sol ->
  has sol "beta" b -> has sol "alpha" a -> has sol "delta" d -> has sol "sigma" s -> has sol "eta" h ->
  has sol "rho" ro -> has sol "sig_z" sig -> has sol "n" n -> has sol "zbar" zb -> has sol "c" c ->
  0 < b -> 0 < a -> a < 1 -> 0 < 1 / b - 1 + d -> 0 < n -> 0 < c -> 0 < sig -> 0 < ro < 1 ->
  exists dom k, model_domain (rbc_version v) (version_domain v) sol = Ok (Some dom) /\ has sol "k" k /\
    (inside dom "k" sol <-> (v = Plain -> 5 <= k <= 15)) /\
    (v = Plain \/ v = Iid ->
       (inside dom "z" sol <-> Rabs zb <= 2 * sig / Rpower (1 - Rpower ro 2) (5/10))).
Proof. exact domain_contains. Qed.
Print Assumptions C134_domain_partial.

Theorem C134_productivity_refuted : forall v, v = Plain \/ v = Iid -> exists sol dom,
  calibrate example_solve (rbc_version v) [("zbar", lit 1)] = Ok sol /\
  model_domain (rbc_version v) (version_domain v) sol = Ok (Some dom) /\ ~ inside dom "z" sol.
Proof. exact domain_refuted. Qed.
Print Assumptions C134_productivity_refuted.
