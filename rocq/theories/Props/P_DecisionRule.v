(** Property theorems C73, C74: decision rules. *)
From Coq Require Import String Reals List Arith.
From Verif.Base Require Import Prelude Arrays.
From Verif.Spec Require Import Product Interpolation.
From Verif.Model Require Import Grids DecisionRule.
From Verif.Proofs Require Import DecisionRuleProofs.
Import ListNotations.
Open Scope R_scope.

(** C73.  One point or a list of points: same row. *)
Theorem C73_call_states_rows :
  forall ev rows out r p,
    (exists F, forall pts, ev pts = Ok (map F pts)) ->
    call1 ev (P2 rows) = Ok (P2 out) -> nth_error rows r = Some p ->
    exists v, nth_error out r = Some v /\ call1 ev (P1 p) = Ok (P1 v).
Proof. exact call1_rows. Qed.
Print Assumptions C73_call_states_rows.

Theorem C73_call_index_rows :
  forall ev_is ev_ms i rows out r p,
    (exists F, forall pts, ev_is i pts = Ok (map F pts)) ->
    call2 ev_is ev_ms (Idx i) (P2 rows) = Ok (P2 out) -> nth_error rows r = Some p ->
    exists v, nth_error out r = Some v /\ call2 ev_is ev_ms (Idx i) (P1 p) = Ok (P1 v).
Proof. exact call2_rows. Qed.
Print Assumptions C73_call_index_rows.

Example C73_example :
  (exists F, forall pts, constant_s [1; 2] pts = Ok (map F pts)) /\
  call1 (constant_s [1; 2]) (P2 [[3]; [4]]) = Ok (P2 [[1; 2]; [1; 2]]) /\
  call1 (constant_s [1; 2]) (P1 [4]) = Ok (P1 [1; 2]).
Proof. split; [exists (fun _ => [1; 2]); reflexivity|]. split; reflexivity. Qed.

(** C73 fails over a Cartesian exogenous grid: with one exogenous point, or an exogenous index,
    and any number of states other than one, the call raises. *)
Theorem C73_cartesian_rows_refuted :
  forall el ec exo endo k c rows g,
    (exists u, exo = GUniform u) \/ (exists u, exo = GNonUniform u) -> k = Linear \/ k = Cubic ->
    grid_add exo endo = Ok g -> length rows <> 1%nat ->
    (forall m, call2 (eval_is el ec exo endo k c) (eval_ms el ec exo endo k c) (Pts (P1 m)) (P2 rows) = Err ExcValue) /\
    (forall i, (i < n_nodes exo)%nat ->
       call2 (eval_is el ec exo endo k c) (eval_ms el ec exo endo k c) (Idx (IInt i)) (P2 rows) = Err ExcValue).
Proof. exact cartesian_mixed_call. Qed.
Print Assumptions C73_cartesian_rows_refuted.

(** C73 fails for an exogenous point written with integers over an unstructured grid. *)
Theorem C73_integer_point_refuted :
  forall el ec nodes endo dims k c l s,
    grid_dims endo = Some dims -> k = Linear \/ k = Cubic ->
    call2 (eval_is el ec (GUnstructured nodes) endo k c) (eval_ms el ec (GUnstructured nodes) endo k c)
      (Idx (IArr l)) s = Err ExcType.
Proof. exact integer_point_call. Qed.
Print Assumptions C73_integer_point_refuted.

(** C74, no exogenous state: all ways of calling the rule give the values at the nodes. *)
Theorem C74_empty :
  forall el pre ec endo dims n_x x k,
    linear_contract el -> cubic_contract pre ec ->
    cartesian_grid endo dims -> (0 < prodn dims)%nat -> nd_shape x = [1; prodn dims; n_x]%nat ->
    k = Linear \/ k = Cubic ->
    exists c, get_coefficients pre GEmpty endo k x = Ok c /\
      forall n, (n < prodn dims)%nat ->
        let s := P1 (node_of endo n) in
        let ev_s := eval_s el ec GEmpty endo k c in
        let ev_is := eval_is el ec GEmpty endo k c in
        let ev_ms := eval_ms el ec GEmpty endo k c in
        call1 ev_s s = Ok (P1 (values_at x n_x n)) /\
        (forall i, call2 ev_is ev_ms (Idx i) s = Ok (P1 (values_at x n_x n))) /\
        (forall m, call2 ev_is ev_ms (Pts (P1 m)) s = Ok (P1 (values_at x n_x n))).
Proof. intros el pre ec endo dims n_x x k H1 H2. exact (empty_call el pre ec H1 H2 endo dims n_x x k). Qed.
Print Assumptions C74_empty.

(** C74, Markov chain, cubic splines. *)
Theorem C74_unstructured_cubic :
  forall el pre ec nodes endo dims n_m n_x x,
    cubic_contract pre ec ->
    cartesian_grid endo dims -> (0 < prodn dims)%nat -> nd_shape x = [n_m; prodn dims; n_x]%nat ->
    exists c, get_coefficients pre (GUnstructured nodes) endo Cubic x = Ok c /\
      forall i n, (i < n_m)%nat -> (n < prodn dims)%nat ->
        call2 (eval_is el ec (GUnstructured nodes) endo Cubic c) (eval_ms el ec (GUnstructured nodes) endo Cubic c)
          (Idx (IInt i)) (P1 (node_of endo n)) = Ok (P1 (values_at x n_x (i * prodn dims + n))).
Proof. intros el pre ec nodes endo dims n_m n_x x H. exact (unstructured_cubic_call el pre ec H nodes endo dims n_m n_x x). Qed.
Print Assumptions C74_unstructured_cubic.

(** C74, Markov chain, linear interpolation: with one state ... *)
Theorem C74_unstructured_linear_one_state :
  forall el pre ec nodes endo n_m N n_x x,
    linear_contract el ->
    cartesian_grid endo [N] -> nd_shape x = [n_m; N; n_x]%nat ->
    exists c, get_coefficients pre (GUnstructured nodes) endo Linear x = Ok c /\
      forall i n, (i < n_m)%nat -> (n < N)%nat ->
        call2 (eval_is el ec (GUnstructured nodes) endo Linear c) (eval_ms el ec (GUnstructured nodes) endo Linear c)
          (Idx (IInt i)) (P1 (node_of endo n)) = Ok (P1 (values_at x n_x (i * N + n))).
Proof. intros el pre ec nodes endo n_m N n_x x H. exact (unstructured_linear_call el pre ec H nodes endo n_m N n_x x). Qed.
Print Assumptions C74_unstructured_linear_one_state.

(** ... with two or more states the coefficients do not have the shape that the interpolation
    contract requires: some interpolant meeting the contract rejects them at every node. *)
Theorem C74_unstructured_linear_refuted :
  forall nodes endo dims n_m n_x x,
    cartesian_grid endo dims -> (2 <= length dims)%nat -> nd_shape x = [n_m; prodn dims; n_x]%nat ->
    exists el, linear_contract el /\
      forall pre ec c i n, get_coefficients pre (GUnstructured nodes) endo Linear x = Ok c -> (i < n_m)%nat ->
        call2 (eval_is el ec (GUnstructured nodes) endo Linear c) (eval_ms el ec (GUnstructured nodes) endo Linear c)
            (Idx (IInt i)) (P1 (node_of endo n)) = Err ExcType.
Proof. exact unstructured_linear_wrong. Qed.
Print Assumptions C74_unstructured_linear_refuted.

(** C74, two non-uniform Cartesian grids. *)
Theorem C74_cartesian_nonuniform :
  forall el pre ec a1 a2 g1 g2 n_x x k,
    linear_contract el -> cubic_contract pre ec -> k = Linear \/ k = Cubic ->
    nonuniform_grid a1 = Ok g1 -> nonuniform_grid a2 = Ok g2 ->
    distinct_nodes (GNonUniform g1) -> distinct_nodes (GNonUniform g2) ->
    nd_shape x = [nrow (nu_nodes g1); nrow (nu_nodes g2); n_x]%nat ->
    let exo := GNonUniform g1 in let endo := GNonUniform g2 in
    exists c, get_coefficients pre exo endo k x = Ok c /\
      forall i n, (i < nrow (nu_nodes g1))%nat -> (n < nrow (nu_nodes g2))%nat ->
        let v := values_at x n_x (i * nrow (nu_nodes g2) + n) in
        let ev_is := eval_is el ec exo endo k c in
        let ev_ms := eval_ms el ec exo endo k c in
        call2 ev_is ev_ms (Pts (P1 (node_of exo i))) (P1 (node_of endo n)) = Ok (P1 v) /\
        call2 ev_is ev_ms (Idx (IInt i)) (P1 (node_of endo n)) = Ok (P1 v).
Proof. exact cartesian_call. Qed.
Print Assumptions C74_cartesian_nonuniform.

(** C74 fails for two uniform grids: a rule whose values are all 1 evaluates to 0 at a node. *)
Theorem C74_cartesian_uniform_refuted :
  exists el g1 g2 x c, linear_contract el /\
    uniform_grid [0] [1] [2%nat] = Ok g1 /\ uniform_grid [2] [3] [2%nat] = Ok g2 /\
    nd_shape x = [2; 2; 1]%nat /\ (forall r, values_at x 1 r = [1]) /\
    (forall pre, get_coefficients pre (GUniform g1) (GUniform g2) Linear x = Ok c) /\
    forall ec, call2 (eval_is el ec (GUniform g1) (GUniform g2) Linear c) (eval_ms el ec (GUniform g1) (GUniform g2) Linear c)
          (Pts (P1 (node_of (GUniform g1) 0))) (P1 (node_of (GUniform g2) 0)) = Ok (P1 [0]).
Proof. exact uniform_cartesian_wrong. Qed.
Print Assumptions C74_cartesian_uniform_refuted.

(** Grids and interpolants meeting the hypotheses. *)
Example C74_contracts : linear_contract lookup_linear /\ cubic_contract (fun _ c => Ok c) lookup_linear.
Proof. split; [exact lookup_contract|exact lookup_cubic_contract]. Qed.
Example C74_small_grid : exists g, uniform_grid [2] [3] [2%nat] = Ok g /\ cartesian_grid (GUniform g) [2%nat].
Proof. exact small_grid. Qed.
Example C74_square_grid :
  exists g1 g2 g, nonuniform_grid [[1; 2]] = Ok g1 /\ nonuniform_grid [[3; 4]] = Ok g2 /\
    distinct_nodes (GNonUniform g1) /\ distinct_nodes (GNonUniform g2) /\
    nrow (nu_nodes g1) = 2%nat /\ nrow (nu_nodes g2) = 2%nat /\
    cartesian_grid (GNonUniform g) [2; 2]%nat.
Proof. exact square_grid. Qed.
