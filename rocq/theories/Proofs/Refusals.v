(** Which calls are refused, and with which exception. *)
From Coq Require Import String Reals List Arith Lia Lra Bool.
From Verif.Base Require Import Prelude Ext Arrays Sums.
From Verif.Spec Require Import LinearAlgebra Perturbation Stationary.
From Verif.Model Require Import LinearSolve DecisionRule Perturbation Grids Discretization PerfectForesight Filters Bruteforce
  TimeIteration ImprovedTimeIteration Distributions Processes.
From Verif.Proofs Require Import PerturbationFinal ProcessProofs.
Import ListNotations.
Open Scope R_scope.

(** ** tauchen *)

Lemma tauchen_outcomes : forall cdf N mu rho sigma m,
    (N = 0%nat -> tauchen cdf N mu rho sigma m = Err ExcIndex) /\
    ((0 < N)%nat -> rho ^ 2 = 1 -> tauchen cdf N mu rho sigma m = Err ExcZeroDiv) /\
    ((0 < N)%nat -> 1 < rho ^ 2 -> tauchen cdf N mu rho sigma m = Err ExcValue) /\
    ((0 < N)%nat -> rho ^ 2 < 1 -> N = 1%nat \/ sigma = 0 -> tauchen cdf N mu rho sigma m = Err ResultNaN) /\
    ((exists c, tauchen cdf N mu rho sigma m = Ok c) <-> (2 <= N)%nat /\ -1 < rho < 1 /\ sigma <> 0).
Proof.
  intros cdf N mu rho sigma m. unfold tauchen. destruct N as [|N].
  - split; [reflexivity|]. split; [lia|]. split; [lia|]. split; [lia|].
    split; [intros (c & H); discriminate|intros (H & _); lia].
  - split; [lia|].
    destruct (Req_EM_T (1 - rho ^ 2) 0) as [E|E].
    { split; [reflexivity|]. split; [intros; lra|]. split; [intros; lra|].
      split; [intros (c & H); discriminate|]. intros (_ & H & _). exfalso. nra. }
    destruct (Rlt_dec (1 - rho ^ 2) 0) as [L|L].
    { split; [intros; lra|]. split; [reflexivity|]. split; [intros; lra|].
      split; [intros (c & H); discriminate|]. intros (_ & H & _). exfalso. nra. }
    split; [intros; lra|]. split; [intros; lra|].
    destruct (Nat.eqb_spec (S N) 1) as [E1|E1].
    { split; [reflexivity|]. split; [intros (c & H); discriminate|intros (H & _); lia]. }
    destruct (Req_EM_T sigma 0) as [E2|E2].
    { split; [reflexivity|]. split; [intros (c & H); discriminate|intros (_ & _ & H); contradiction]. }
    split; [intros _ _ [H|H]; contradiction|].
    split; [|intros _; eexists; reflexivity]. intros _. split; [lia|]. split; [nra|exact E2].
Qed.

(** ** grids *)

Lemma nonuniform_outcomes : forall axes,
    (axes = [] -> nonuniform_grid axes = Err ExcIndex) /\
    (In [] axes -> nonuniform_grid axes = Err ExcValue) /\
    ((exists g, nonuniform_grid axes = Ok g) <-> axes <> [] /\ ~ In [] axes).
Proof.
  intros axes. unfold nonuniform_grid.
  destruct (existsb (fun a => Nat.eqb (length a) 0) axes) eqn:E.
  - apply existsb_exists in E. destruct E as (a & Ha & Ea). apply Nat.eqb_eq in Ea. destruct a; [|discriminate].
    split; [intros ->; destruct Ha|]. split; [reflexivity|]. split; [intros (g & H); discriminate|intros (_ & H); contradiction].
  - assert (N : ~ In [] axes).
    { intro H. assert (X : existsb (fun a : list R => Nat.eqb (length a) 0) axes = true).
      { apply existsb_exists. exists []. split; [exact H|reflexivity]. } congruence. }
    destruct axes as [|a l].
    + split; [reflexivity|]. split; [intros []|]. split; [intros (g & H); discriminate|intros (H & _); contradiction].
    + split; [discriminate|]. split; [contradiction|]. split; [intros _; split; [discriminate|exact N]|].
      intros _. cbn [bind cartesian]. eexists. reflexivity.
Qed.

Lemma grid_add_outcomes : forall a b,
    (exists g, grid_add a b = Ok g) -> a = GEmpty \/ (exists u v, a = GUniform u /\ b = GUniform v) \/
                                       (exists u v, a = GNonUniform u /\ b = GNonUniform v).
Proof.
  intros a b (g & H). destruct a; cbn in H; auto; destruct b; try discriminate; eauto 8.
Qed.

Lemma grid_add_refused : forall a b,
    (forall p, a = GPoint p -> grid_add a b = Err ExcType) /\
    (forall p, a = GUnstructured p -> grid_add a b = Err ExcType) /\
    (forall u, a = GUniform u -> (forall v, b <> GUniform v) -> grid_add a b = Err (ExcGeneric "Not implemented.")) /\
    (forall u, a = GNonUniform u -> (forall v, b <> GNonUniform v) -> grid_add a b = Err (ExcGeneric "Not implemented.")).
Proof.
  intros a b. repeat split; intros u ->; try reflexivity; intros H; destruct b; try reflexivity; exfalso; eapply H; reflexivity.
Qed.

(** ** exogenous paths of perfect foresight *)

Lemma shocks_dict_refused : forall names cal d T e,
    shocks_to_epsilons names cal (SDict d) T = Err e ->
    exists i l, (i < length names)%nat /\ dict_get (nth i names EmptyString) d = Some l /\
      (e = ExcValue /\ (T + 1 < length l)%nat \/ e = ExcIndex /\ l = []).
Proof.
  intros names cal d T e H. unfold shocks_to_epsilons in H.
  assert (G : forall k (s : nat -> nat -> R), (k <= length names)%nat ->
     for_range_res k (fun i eps =>
        match dict_get (nth i names EmptyString) d with
        | Some l => bind (dict_column T l) (fun col => Ok (fun t j => if Nat.eqb j i then col t else eps t j))
        | None => Ok (fun t j => if Nat.eqb j i then cal i else eps t j)
        end) s = Err e ->
     exists i l, (i < length names)%nat /\ dict_get (nth i names EmptyString) d = Some l /\
       (e = ExcValue /\ (T + 1 < length l)%nat \/ e = ExcIndex /\ l = [])).
  { induction k as [|k IH]; intros s Hk Hr; [discriminate|]. cbn [for_range_res] in Hr.
    destruct (for_range_res k _ s) as [x|e'] eqn:Ex.
    - cbn [bind] in Hr. destruct (dict_get (nth k names EmptyString) d) as [l|] eqn:El; [|discriminate].
      exists k, l. split; [lia|]. split; [exact El|].
      unfold dict_column in Hr. destruct (Nat.ltb_spec (T + 1) (length l)) as [L|L].
      + cbn [bind] in Hr. inversion Hr. left. auto.
      + destruct l as [|a l]; cbn [bind] in Hr; [inversion Hr; right; auto|discriminate].
    - cbn [bind] in Hr. inversion Hr; subst e'. apply (IH s); [lia|exact Ex]. }
  exact (G _ _ (le_n _) H).
Qed.

Lemma shocks_array_outcomes : forall names cal a T,
    (forall e, shocks_to_epsilons names cal (SArray a) T = Err e -> e = ExcValue) /\
    ((exists eps, shocks_to_epsilons names cal (SArray a) T = Ok eps) <->
     exists k, (0 < length names)%nat /\ (0 < k)%nat /\ length a = (k * length names)%nat /\ (k <= T + 2)%nat).
Proof.
  intros names cal a T. unfold shocks_to_epsilons, array_epsilons. set (n := length names).
  destruct (Nat.eqb_spec n 0) as [E|E].
  { split; [intros e H; inversion H; reflexivity|]. split; [intros (x & H); discriminate|intros (k & H & _); lia]. }
  destruct (Nat.eqb_spec (length a mod n) 0) as [M|M]; cbn [negb].
  2:{ split; [intros e H; inversion H; reflexivity|]. split; [intros (x & H); discriminate|].
      intros (k & _ & _ & H & _). rewrite H in M. rewrite Nat.mod_mul in M by lia. contradiction. }
  pose proof (Nat.div_exact (length a) n E) as D. apply D in M. cbv zeta.
  destruct (Nat.eqb_spec (length a / n) 0) as [Z|Z].
  { split; [intros e H; inversion H; reflexivity|]. split; [intros (x & H); discriminate|].
    intros (k & _ & Hk & H & _). rewrite Z in M. nia. }
  destruct (Nat.ltb_spec (T + 1) (length a / n - 1)) as [L|L].
  { split; [intros e H; inversion H; reflexivity|]. split; [intros (x & H); discriminate|].
    intros (k & _ & Hk & H & HT). rewrite H, Nat.div_mul in L by lia. lia. }
  split; [discriminate|]. split; [|intros _; eexists; reflexivity].
  intros _. exists (length a / n)%nat. repeat split; lia.
Qed.

(** ** filters *)

Lemma hp_outcomes : forall solve n lam,
    hp_filter solve (Series2 n []) lam = Err ExcValue /\
    hp_filter solve SeriesN lam = Err (ExcGeneric "HP filter is not defined for dimension >= 3.").
Proof. intros. split; reflexivity. Qed.

(** ** Kronecker products of bases *)

Lemma fits_square_spec : forall B, fits_square B = true <-> (ncol B = nrow B \/ ncol B = 1%nat).
Proof.
  intros B. unfold fits_square. rewrite orb_true_iff, !Nat.eqb_eq. reflexivity.
Qed.

Lemma b_prod_outcomes : forall bs, (length bs = 2 \/ length bs = 3)%nat ->
    (forall e, B_prod bs = Err e -> e = ExcValue) /\
    ((exists M, B_prod bs = Ok M) <-> forall B, In B bs -> ncol B = nrow B \/ ncol B = 1%nat).
Proof.
  intros bs HL. destruct bs as [|A [|B [|C [|D bs]]]]; cbn [length] in HL; try lia; cbn [B_prod].
  - destruct (fits_square A && fits_square B) eqn:E.
    + apply andb_prop in E. destruct E as (E1 & E2). apply fits_square_spec in E1. apply fits_square_spec in E2.
      split; [discriminate|]. split; [|intros _; eexists; reflexivity].
      intros _ X [<-|[<-|[]]]; assumption.
    + split; [intros e H; inversion H; reflexivity|]. split; [intros (M & H); discriminate|].
      intros H. apply andb_false_iff in E.
      destruct E as [E|E]; [pose proof (proj2 (fits_square_spec A) (H A ltac:(cbn; auto)))|pose proof (proj2 (fits_square_spec B) (H B ltac:(cbn; auto)))]; congruence.
  - destruct (fits_square A && fits_square B && fits_square C) eqn:E.
    + apply andb_prop in E. destruct E as (E & E3). apply andb_prop in E. destruct E as (E1 & E2).
      apply fits_square_spec in E1. apply fits_square_spec in E2. apply fits_square_spec in E3.
      split; [discriminate|]. split; [|intros _; eexists; reflexivity].
      intros _ X [<-|[<-|[<-|[]]]]; assumption.
    + split; [intros e H; inversion H; reflexivity|]. split; [intros (M & H); discriminate|].
      intros H. apply andb_false_iff in E. destruct E as [E|E].
      * apply andb_false_iff in E.
        destruct E as [E|E]; [pose proof (proj2 (fits_square_spec A) (H A ltac:(cbn; auto)))|pose proof (proj2 (fits_square_spec B) (H B ltac:(cbn; auto)))]; congruence.
      * pose proof (proj2 (fits_square_spec C) (H C ltac:(cbn; auto))). congruence.
Qed.

(** ** initial controls of time iteration *)

Lemma fill_refused : forall n_ms N n_x call e, fill_controls n_ms N n_x call = Err e ->
    (exists i, (i < n_ms)%nat /\ call i = Err e) \/
    (e = ExcValue /\ exists i, (i < n_ms)%nat /\
       ((exists rows, call i = Ok (P2 rows) /\ ~ (length rows = N /\ Forall (fun r => length r = n_x) rows)) \/
        (exists r, call i = Ok (P1 r) /\ length r <> n_x))).
Proof.
  intros n_ms N n_x call e. unfold fill_controls. generalize (fun _ _ _ : nat => 0) as a0.
  induction n_ms as [|k IH]; intros a0 H; [discriminate|]. cbn [for_range_res] in H.
  destruct (for_range_res k _ a0) as [x|e'] eqn:Ex; cbn [bind] in H.
  2:{ inversion H; subst e'. destruct (IH a0 Ex) as [(i & Hi & Hc)|(He & i & Hi & Hc)].
      - left. exists i. split; [lia|exact Hc].
      - right. split; [exact He|]. exists i. split; [lia|exact Hc]. }
  destruct (call k) as [p|e'] eqn:Ec; cbn [bind] in H.
  2:{ inversion H; subst e'. left. exists k. split; [lia|exact Ec]. }
  right. destruct p as [r|rows].
  - destruct (Nat.eqb_spec (length r) n_x) as [E|E]; [discriminate|]. inversion H. split; [reflexivity|].
    exists k. split; [lia|]. right. exists r. auto.
  - destruct (andb _ _) eqn:E; [discriminate|]. inversion H. split; [reflexivity|].
    exists k. split; [lia|]. left. exists rows. split; [exact Ec|]. intros (G1 & G2).
    apply andb_false_iff in E. destruct E as [E|E].
    + apply Nat.eqb_neq in E. contradiction.
    + assert (X : forallb (fun r => Nat.eqb (length r) n_x) rows = true).
      { apply forallb_forall. intros r Hr. apply Nat.eqb_eq. rewrite Forall_forall in G2. apply G2, Hr. }
      congruence.
Qed.

(** ** perturbation *)

Lemma above_iff : forall SS TT i, ext_leb (Fin 1) (eigval SS TT i) = true <-> Rabs (TT i i) <= Rabs (SS i i).
Proof.
  intros SS TT i. unfold eigval. destruct (Req_EM_T (TT i i) 0) as [E|E].
  - rewrite E, Rabs_R0. cbn. split; [intros _; apply Rabs_pos|reflexivity].
  - pose proof (Rabs_pos_lt _ E) as P. cbn. unfold Rdiv. rewrite Rabs_mult, Rabs_inv.
    destruct (Rle_dec 1 (Rabs (SS i i) * / Rabs (TT i i))) as [L|L]; split; intros H; try reflexivity; try discriminate.
    + apply (Rmult_le_compat_r (Rabs (TT i i))) in L; [|lra]. rewrite Rmult_assoc, Rinv_l in L by lra. lra.
    + exfalso. apply L. apply (Rmult_le_reg_r (Rabs (TT i i))); [lra|]. rewrite Rmult_assoc, Rinv_l by lra. lra.
Qed.

Lemma below_iff : forall SS TT i, ext_ltb (eigval SS TT i) (Fin 1) = true <-> unstable_root SS TT i.
Proof.
  intros SS TT i. unfold ext_ltb, unstable_root. pose proof (above_iff SS TT i) as H.
  destruct (ext_leb (Fin 1) (eigval SS TT i)); cbn.
  - split; [discriminate|]. intros L. assert (Rabs (TT i i) <= Rabs (SS i i)) by (apply H; reflexivity). lra.
  - split; [|reflexivity]. intros _. destruct (Rlt_le_dec (Rabs (SS i i)) (Rabs (TT i i))) as [L|L]; [exact L|].
    apply H in L. discriminate.
Qed.

Lemma pairs_iff : forall n SS TT, pairs_ok n SS TT = true <->
    forall i, (i < n)%nat -> 1 / 10 ^ 10 <= Rabs (SS i i) \/ 1 / 10 ^ 10 <= Rabs (TT i i).
Proof.
  intros n SS TT. unfold pairs_ok. rewrite forallb_forall. unfold tol_geneigvals. split.
  - intros H i Hi. specialize (H i ltac:(apply in_seq; lia)).
    destruct (Rlt_dec (Rabs (SS i i)) (1 / 10 ^ 10)) as [L1|L1]; [|left; lra].
    destruct (Rlt_dec (Rabs (TT i i)) (1 / 10 ^ 10)) as [L2|L2]; [discriminate|right; lra].
  - intros H i Hi. apply in_seq in Hi. destruct (H i ltac:(lia)) as [L|L].
    + destruct (Rlt_dec (Rabs (SS i i)) (1 / 10 ^ 10)) as [L1|L1]; [lra|reflexivity].
    + destruct (Rlt_dec (Rabs (TT i i)) (1 / 10 ^ 10)) as [L1|L1]; [lra|]. rewrite andb_false_r. reflexivity.
Qed.

Lemma bk_iff : forall n m SS TT, bk_check n m (eigval SS TT) = Ok true <->
    (exists i, (i < n)%nat /\ ~ unstable_root SS TT i) /\
    (exists i, (n <= i)%nat /\ (i < n + m)%nat /\ unstable_root SS TT i).
Proof.
  intros n m SS TT. split.
  - intros H. apply bk_pass in H. destruct H as ((i & Hi & Ei) & (k & Hk1 & Hk2 & Ek)). split.
    + exists i. split; [exact Hi|]. apply above_iff in Ei. unfold unstable_root. lra.
    + exists k. repeat split; auto. apply below_iff, Ek.
  - intros ((i & Hi & Ei) & (k & Hk1 & Hk2 & Ek)). unfold bk_check.
    destruct (Nat.eqb_spec n 0); [lia|]. destruct (Nat.eqb_spec m 0); [lia|].
    assert (A : some_above (eigval SS TT) (seq 0 n) = true).
    { unfold some_above. apply existsb_exists. exists i. split; [apply in_seq; lia|]. apply above_iff. unfold unstable_root in Ei. lra. }
    assert (B : some_below (eigval SS TT) (seq n m) = true).
    { unfold some_below. apply existsb_exists. exists k. split; [apply in_seq; lia|]. apply below_iff, Ek. }
    rewrite A, B. reflexivity.
Qed.

Section Pert.
  Variable qz : nat -> matR -> matR -> R -> res (matR * matR * matR * matR).
  Variable solve : nat -> matR -> (nat -> R) -> res (nat -> R).

  Lemma rule_matrix_complete : forall n m Z, complete_solver solve -> ~ singular n (fun a b => Z b a) ->
      exists C, rule_matrix solve n m Z = Ok C.
  Proof.
    intros n m Z HC HZ. unfold rule_matrix. generalize (fun _ _ : nat => 0) as C0.
    induction m as [|m IH]; intros C0; [exists C0; reflexivity|].
    destruct (IH C0) as (C & HCC). cbn [for_range_res]. rewrite HCC. cbn [bind].
    destruct (solve n (fun a b => Z b a) (fun j => Z (n + m)%nat j)) as [c|e] eqn:E.
    - cbn [bind]. eexists. reflexivity.
    - exfalso. exact (HZ (HC _ _ _ _ E)).
  Qed.

  Lemma approximate_accepts : forall n m d SS TT QQ ZZ,
      complete_solver solve ->
      qz (n + m)%nat (lead n (f_S d) (f_X d)) (lag n (g_s d) (g_x d) (f_s d) (f_x d)) (1 - 1 / 10 ^ 8) = Ok (SS, TT, QQ, ZZ) ->
      ~ singular n (fun a b => ZZ b a) ->
      ((exists C ev, approximate_1st_order qz solve n m d = Ok (C, ev)) <->
       (forall i, (i < n + m)%nat -> 1 / 10 ^ 10 <= Rabs (SS i i) \/ 1 / 10 ^ 10 <= Rabs (TT i i)) /\
       (exists i, (i < n)%nat /\ ~ unstable_root SS TT i) /\
       (exists i, (n <= i)%nat /\ (i < n + m)%nat /\ unstable_root SS TT i)).
  Proof.
    intros n m d SS TT QQ ZZ HC Eq HZ. split.
    - intros (C & ev & E). pose proof (approximate_cases qz solve n m d _ E) as HA. cbv iota beta in HA.
      destruct HA as (S' & T' & Q' & Z' & Eq' & Hp & Hbk & _ & _). rewrite Eq in Eq'. injection Eq' as <- <- <- <-.
      split; [apply pairs_iff, Hp|]. apply bk_iff, Hbk.
    - intros (Hp & Hbk). apply pairs_iff in Hp. apply bk_iff in Hbk.
      destruct (rule_matrix_complete n m ZZ HC HZ) as (C & EC).
      unfold approximate_1st_order.
      match goal with |- context [qz _ ?a ?b _] =>
        change a with (lead n (f_S d) (f_X d)); change b with (lag n (g_s d) (g_x d) (f_s d) (f_x d)) end.
      rewrite Eq. cbn [bind]. rewrite Hp. cbn [negb]. rewrite Hbk. cbn [bind]. rewrite EC. cbn [bind].
      do 2 eexists. reflexivity.
  Qed.

  Lemma approximate_zero_pair : forall n m d SS TT QQ ZZ i,
      qz (n + m)%nat (lead n (f_S d) (f_X d)) (lag n (g_s d) (g_x d) (f_s d) (f_x d)) (1 - 1 / 10 ^ 8) = Ok (SS, TT, QQ, ZZ) ->
      (i < n + m)%nat -> Rabs (SS i i) < 1 / 10 ^ 10 -> Rabs (TT i i) < 1 / 10 ^ 10 ->
      approximate_1st_order qz solve n m d = Err ExcName.
  Proof.
    intros n m d SS TT QQ ZZ i Eq Hi H1 H2. unfold approximate_1st_order.
    match goal with |- context [qz _ ?a ?b _] =>
      change a with (lead n (f_S d) (f_X d)); change b with (lag n (g_s d) (g_x d) (f_s d) (f_x d)) end.
    rewrite Eq. cbn [bind].
    destruct (pairs_ok (n + m) SS TT) eqn:E; [|reflexivity]. exfalso.
    destruct (proj1 (pairs_iff _ _ _) E i Hi); lra.
  Qed.
End Pert.

(** ** products of processes *)

Lemma as_chains_mixed : forall ds, (exists d, In (DIid d) ds) -> as_chains ds = Err ExcAttribute.
Proof.
  induction ds as [|[d'|c] ds IH]; intros (d & H); [destruct H|reflexivity|].
  destruct H as [H|H]; [discriminate|]. cbn [as_chains]. rewrite IH by (exists d; exact H). reflexivity.
Qed.
Lemma as_iids_mixed : forall ds, (exists c, In (DChain c) ds) -> as_iids ds = Err ExcAttribute.
Proof.
  induction ds as [|[d|c'] ds IH]; intros (c & H); [destruct H| |reflexivity].
  destruct H as [H|H]; [discriminate|]. cbn [as_iids]. rewrite IH by (exists c; exact H). reflexivity.
Qed.

Lemma product_mixed_refused : forall (K : Type) (l : list (process K)) o ds t,
    length (kwargs_of l o) = length l ->
    Forall2 (fun pk d => p_discretize (fst pk) t (snd pk) = Ok d) (combine l (kwargs_of l o)) ds ->
    t = ToMc /\ (exists d, In (DIid d) ds) \/ t = ToIid /\ (exists c, In (DChain c) ds) ->
    product_discretize l (Some t) o = Err ExcAttribute.
Proof.
  intros K l o ds t Hk HF H. rewrite product_eq by exact Hk. cbv zeta.
  rewrite (discretize_all_ok t l (kwargs_of l o) ds); [|exact HF|exact Hk]. cbn [bind].
  destruct H as [(-> & H)|(-> & H)]; [rewrite as_chains_mixed by exact H|rewrite as_iids_mixed by exact H]; reflexivity.
Qed.

(** ** residuals without an exogenous node *)
Lemma euler_no_node : forall g f exo s n_x dr x, ex_n exo = 0%nat -> euler_residuals g f exo s n_x dr x = Err ExcIndex.
Proof. intros g f exo s n_x dr x H. unfold euler_residuals. rewrite H. reflexivity. Qed.
