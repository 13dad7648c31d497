(** Properties C122-C124: calls that are refused, the second decomposition of the higher-order solver, rules read by
    simulations. *)
From Coq Require Import Permutation Sorted String Reals List Arith Lia Lra.
From Verif.Base Require Import Prelude Ext Sums Arrays Nda.
From Verif.Spec Require Import LinearAlgebra Perturbation Stationary.
From Verif.Model Require Import LinearSolve DecisionRule Perturbation Grids Discretization PerfectForesight Filters Bruteforce
  TimeIteration ImprovedTimeIteration Distributions Processes HigherOrder Simulation.
From Verif.Proofs Require Import PerturbationFinal ProcessProofs Refusals SecondCall StationaryLaws.
Import ListNotations.
Open Scope R_scope.

(** C122.  tauchen returns a chain exactly for two nodes or more, a persistence strictly between -1 and 1 and a standard
    deviation that is not zero; the other calls raise, or give nan. *)
Theorem C122_tauchen :
  forall cdf N mu rho sigma m,
    (N = 0%nat -> tauchen cdf N mu rho sigma m = Err ExcIndex) /\
    ((0 < N)%nat -> rho ^ 2 = 1 -> tauchen cdf N mu rho sigma m = Err ExcZeroDiv) /\
    ((0 < N)%nat -> 1 < rho ^ 2 -> tauchen cdf N mu rho sigma m = Err ExcValue) /\
    ((0 < N)%nat -> rho ^ 2 < 1 -> N = 1%nat \/ sigma = 0 -> tauchen cdf N mu rho sigma m = Err ResultNaN) /\
    ((exists c, tauchen cdf N mu rho sigma m = Ok c) <-> (2 <= N)%nat /\ -1 < rho < 1 /\ sigma <> 0).
Proof. exact tauchen_outcomes. Qed.
Print Assumptions C122_tauchen.

(** A non-uniform grid is built exactly from axes that all have nodes, at least one. *)
Theorem C122_nonuniform_grid :
  forall axes,
    (axes = [] -> nonuniform_grid axes = Err ExcIndex) /\
    (In [] axes -> nonuniform_grid axes = Err ExcValue) /\
    ((exists g, nonuniform_grid axes = Ok g) <-> axes <> [] /\ ~ In [] axes).
Proof. exact nonuniform_outcomes. Qed.
Print Assumptions C122_nonuniform_grid.

(** Grids are added only to grids of the same kind (or to an empty grid). *)
Theorem C122_add_accepted :
  forall a b, (exists g, grid_add a b = Ok g) ->
    a = GEmpty \/ (exists u v, a = GUniform u /\ b = GUniform v) \/ (exists u v, a = GNonUniform u /\ b = GNonUniform v).
Proof. exact grid_add_outcomes. Qed.
Print Assumptions C122_add_accepted.

Theorem C122_add_refused :
  forall a b,
    (forall p, a = GPoint p -> grid_add a b = Err ExcType) /\
    (forall p, a = GUnstructured p -> grid_add a b = Err ExcType) /\
    (forall u, a = GUniform u -> (forall v, b <> GUniform v) -> grid_add a b = Err (ExcGeneric "Not implemented.")) /\
    (forall u, a = GNonUniform u -> (forall v, b <> GNonUniform v) -> grid_add a b = Err (ExcGeneric "Not implemented.")).
Proof. exact grid_add_refused. Qed.
Print Assumptions C122_add_refused.

(** A dict of shocks is refused only because of a series of a declared variable: ValueError when it is longer than the
    horizon, IndexError when it is empty. *)
Theorem C122_shocks_dict :
  forall names cal d T e,
    shocks_to_epsilons names cal (SDict d) T = Err e ->
    exists i l, (i < length names)%nat /\ dict_get (nth i names EmptyString) d = Some l /\
      (e = ExcValue /\ (T + 1 < length l)%nat \/ e = ExcIndex /\ l = []).
Proof. exact shocks_dict_refused. Qed.
Print Assumptions C122_shocks_dict.

(** An array of shocks is accepted exactly when it has a whole number of rows, one at least and at most T + 2. *)
Theorem C122_shocks_array :
  forall names cal a T,
    (forall e, shocks_to_epsilons names cal (SArray a) T = Err e -> e = ExcValue) /\
    ((exists eps, shocks_to_epsilons names cal (SArray a) T = Ok eps) <->
     exists k, (0 < length names)%nat /\ (0 < k)%nat /\ length a = (k * length names)%nat /\ (k <= T + 2)%nat).
Proof. exact shocks_array_outcomes. Qed.
Print Assumptions C122_shocks_array.

(** hp_filter: a table without rows, an array with more axes. *)
Theorem C122_hp_filter :
  forall solve n lam,
    hp_filter solve (Series2 n []) lam = Err ExcValue /\
    hp_filter solve SeriesN lam = Err (ExcGeneric "HP filter is not defined for dimension >= 3.").
Proof. exact hp_outcomes. Qed.
Print Assumptions C122_hp_filter.

(** The Kronecker product of two or three bases: each must be square, or have a single column. *)
Theorem C122_bases :
  forall bs, (length bs = 2 \/ length bs = 3)%nat ->
    (forall e, B_prod bs = Err e -> e = ExcValue) /\
    ((exists M, B_prod bs = Ok M) <-> forall B, In B bs -> ncol B = nrow B \/ ncol B = 1%nat).
Proof. exact b_prod_outcomes. Qed.
Print Assumptions C122_bases.

(** Initial controls: an exception of the rule given is not hidden by another one; ValueError means that the rule
    returned an array of a wrong shape. *)
Theorem C122_initial_rule :
  forall n_ms N n_x call e, fill_controls n_ms N n_x call = Err e ->
    (exists i, (i < n_ms)%nat /\ call i = Err e) \/
    (e = ExcValue /\ exists i, (i < n_ms)%nat /\
       ((exists rows, call i = Ok (P2 rows) /\ ~ (length rows = N /\ Forall (fun r => length r = n_x) rows)) \/
        (exists r, call i = Ok (P1 r) /\ length r <> n_x))).
Proof. exact fill_refused. Qed.
Print Assumptions C122_initial_rule.

(** Perturbation: with a solver that fails on singular matrices only, a rule is returned exactly when no root is 0/0,
    one of the first n roots is not unstable and one of the others is. *)
Theorem C122_perturbation :
  forall qz solve n m d SS TT QQ ZZ,
    complete_solver solve ->
    qz (n + m)%nat (lead n (f_S d) (f_X d)) (lag n (g_s d) (g_x d) (f_s d) (f_x d)) (1 - 1 / 10 ^ 8) = Ok (SS, TT, QQ, ZZ) ->
    ~ singular n (fun a b => ZZ b a) ->
    ((exists C ev, approximate_1st_order qz solve n m d = Ok (C, ev)) <->
     (forall i, (i < n + m)%nat -> 1 / 10 ^ 10 <= Rabs (SS i i) \/ 1 / 10 ^ 10 <= Rabs (TT i i)) /\
     (exists i, (i < n)%nat /\ ~ unstable_root SS TT i) /\
     (exists i, (n <= i)%nat /\ (i < n + m)%nat /\ unstable_root SS TT i)).
Proof. exact approximate_accepts. Qed.
Print Assumptions C122_perturbation.

(** A pair 0/0 is reported by NameError (the exception class meant is not defined). *)
Theorem C122_zero_pair :
  forall qz solve n m d SS TT QQ ZZ i,
    qz (n + m)%nat (lead n (f_S d) (f_X d)) (lag n (g_s d) (g_x d) (f_s d) (f_x d)) (1 - 1 / 10 ^ 8) = Ok (SS, TT, QQ, ZZ) ->
    (i < n + m)%nat -> Rabs (SS i i) < 1 / 10 ^ 10 -> Rabs (TT i i) < 1 / 10 ^ 10 ->
    approximate_1st_order qz solve n m d = Err ExcName.
Proof. exact approximate_zero_pair. Qed.
Print Assumptions C122_zero_pair.

(** Products of processes: a factor discretised as something else than what is asked raises AttributeError. *)
Theorem C122_mixed_product :
  forall (K : Type) (l : list (process K)) o ds t,
    length (kwargs_of l o) = length l ->
    Forall2 (fun pk d => p_discretize (fst pk) t (snd pk) = Ok d) (combine l (kwargs_of l o)) ds ->
    t = ToMc /\ (exists d, In (DIid d) ds) \/ t = ToIid /\ (exists c, In (DChain c) ds) ->
    product_discretize l (Some t) o = Err ExcAttribute.
Proof. exact product_mixed_refused. Qed.
Print Assumptions C122_mixed_product.

(** Residuals of improved time iteration need an exogenous node. *)
Theorem C122_residuals :
  forall g f exo s n_x dr x, ex_n exo = 0%nat -> euler_residuals g f exo s n_x dr x = Err ExcIndex.
Proof. exact euler_no_node. Qed.
Print Assumptions C122_residuals.

Example C122_example :
  (exists c, tauchen (fun _ => 1 / 2) 3 0 (1 / 2) 1 3 = Ok c) /\
  complete_solver gauss_solve /\
  (exists eps, shocks_to_epsilons ["a"%string] (fun _ => 0) (SArray [1; 2; 3]) 1 = Ok eps) /\
  shocks_to_epsilons ["a"%string] (fun _ => 0) (SArray [1; 2; 3; 4]) 1 = Err ExcValue /\
  B_prod [Mat 2 2 (fun _ _ => 1); Mat 2 3 (fun _ _ => 1)] = Err ExcValue.
Proof.
  split; [|split; [exact gauss_complete_solver|split; [eexists; reflexivity|split; reflexivity]]].
  apply (proj2 (proj2 (proj2 (proj2 (C122_tauchen (fun _ => 1 / 2) 3 0 (1 / 2) 1 3))))). split; [lia|lra].
Qed.

(** C123, proved part.  Any numbers of states and controls: when the moduli r of the roots do not split at one, with
    l their list in decreasing order, the higher-order solver asks for a second decomposition, that selects
    the roots with alpha^2 > c beta^2 for c half the distance between a, the last of the n_s largest moduli, and the
    next one, b; if these are equal it raises NameError.  Missing: that c separates the roots. *)
Theorem C123_second_partial :
  forall qz solve n_s n_x f1 g1 SS TT QQ ZZ (r : nat -> R) l,
    (1 <= n_s)%nat -> (1 <= n_x)%nat ->
    let A := lead n_s (fun i j => at_ f1 [i; (n_s + n_x + j)%nat]) (fun i j => at_ f1 [i; (n_s + n_x + n_s + j)%nat]) in
    let B := lag n_s (fun i j => at_ g1 [i; j]) (fun i j => at_ g1 [i; (n_s + j)%nat])
                 (fun i j => at_ f1 [i; j]) (fun i j => at_ f1 [i; (n_s + j)%nat]) in
    qz (n_s + n_x)%nat A B (Fin (1 - 1 / 10 ^ 8)) = Ok (SS, TT, QQ, ZZ) ->
    (forall i, (i < n_s + n_x)%nat -> 1 / 10 ^ 10 <= Rabs (TT i i) /\ r i = Rabs (SS i i / TT i i)) ->
    (forall i, (i < n_s)%nat -> r i < 1) \/ (forall i, (n_s <= i)%nat -> (i < n_s + n_x)%nat -> 1 <= r i) ->
    StronglySorted Rge l -> Permutation l (map r (seq 0 (n_s + n_x))) ->
    let a := nth (n_s - 1) l 0 in let b := nth n_s l 0 in
    first_order qz solve n_s n_x f1 g1 =
      (if Rlt_dec b a
       then bind (qz (n_s + n_x)%nat A B (Fin ((a - b) / 2))) (fun r => let '(S', T', _, Z') := r in first_rule solve n_s n_x S' T' Z')
       else Err ExcName).
Proof. exact second_call_all. Qed.
Print Assumptions C123_second_partial.

(** C123, refuted: with roots of moduli 2 and 3/2 both are selected. *)
Theorem C123_cutoff_refuted : exists r0 r1, (r0 < 1 \/ 1 <= r1) /\ r1 < r0 /\
    ~ (Rabs (r0 - r1) / 2 < r0 ^ 2 /\ r1 ^ 2 <= Rabs (r0 - r1) / 2).
Proof. exact cutoff_wrong. Qed.
Print Assumptions C123_cutoff_refuted.

(** Two states and one control, roots of moduli 3/2, 2 and 3. *)
Example C123_example : exists (qz : nat -> matR -> matR -> ext -> res (matR * matR * matR * matR)) SS TT (r : nat -> R) l,
    (forall A B c, qz 3%nat A B c = Ok (SS, TT, eye, eye)) /\
    (forall i, (i < 2 + 1)%nat -> 1 / 10 ^ 10 <= Rabs (TT i i) /\ r i = Rabs (SS i i / TT i i)) /\
    (forall i, (2 <= i)%nat -> (i < 2 + 1)%nat -> 1 <= r i) /\
    StronglySorted Rge l /\ Permutation l (map r (seq 0 (2 + 1))).
Proof.
  exists (fun _ _ _ _ => Ok ((fun i _ => match i with 0%nat => 3 / 2 | 1%nat => 2 | _ => 3 end), (fun _ _ => 1), eye, eye)),
    (fun i _ => match i with 0%nat => 3 / 2 | 1%nat => 2 | _ => 3 end), (fun _ _ => 1),
    (fun i => match i with 0%nat => 3 / 2 | 1%nat => 2 | _ => 3 end), [3; 2; 3 / 2].
  split; [reflexivity|]. split; [|split; [|split]].
  - intros i Hi. rewrite Rabs_R1. split; [cbn; lra|]. destruct i as [|[|[|i]]]; try lia; rewrite Rabs_right; lra.
  - intros i Hi Hj. assert (i = 2)%nat as -> by lia. lra.
  - repeat constructor; lra.
  - cbn. change [3; 2; 3 / 2] with (rev [3 / 2; 2; 3]). apply Permutation_sym, Permutation_rev.
Qed.

(** C124.  The controls a simulation reads from a decision rule are those of the user's calls dr(i, s) and dr(m, s); without
    an index only a rule without exogenous grid can be read. *)
Theorem C124_rule_read :
  forall el ec exo endo k c i m s,
    let ru := grid_rule el ec exo endo k c in
    let call := call2 (eval_is el ec exo endo k c) (eval_ms el ec exo endo k c) in
    call (Idx (IInt i)) (P1 s) = bind (ru_is ru (Some i) s) (fun r => Ok (P1 r)) /\
    call (Pts (P1 m)) (P1 s) = bind (ru_ms ru m s) (fun r => Ok (P1 r)) /\
    (exo = GEmpty -> forall j, ru_is ru None s = ru_is ru (Some j) s) /\
    (exo <> GEmpty -> is_err (ru_is ru None s)).
Proof. exact grid_rule_calls. Qed.
Print Assumptions C124_rule_read.

(** The nodes it looks the exogenous values up in are those of the exogenous grid. *)
Theorem C124_nodes :
  forall el ec exo endo k c nodes i,
    ru_nodes (grid_rule el ec exo endo k c) = Ok nodes -> (i < nrow nodes)%nat -> grid_node exo i = Ok (row nodes i).
Proof. exact grid_rule_nodes. Qed.
Print Assumptions C124_nodes.

Example C124_example : exists nodes,
    ru_nodes (grid_rule (fun _ _ s => Ok s) (fun _ _ s => Ok s) (GUnstructured (Mat 2 1 (fun i _ => INR i))) GEmpty Linear
                (CList [])) = Ok nodes /\ nrow nodes = 2%nat.
Proof. eexists. split; reflexivity. Qed.
