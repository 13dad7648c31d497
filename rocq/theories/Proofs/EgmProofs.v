(** Proofs about the endogenous grid method. *)
From Coq Require Import String Reals List Arith Lia Lra Psatz Bool.
From Verif.Base Require Import Prelude Arrays Sums Norms Ext.
From Verif.Spec Require Import Egm.
From Verif.Model Require Import Discretization Grids Distributions Processes TimeIteration Egm.
From Verif.Proofs Require Import TimeIterationProofs ValueIterationProofs.
Import ListNotations.
Open Scope R_scope.

Lemma clamp_projection : forall l u x, l <> PInf -> u <> MInf -> ext_le l u ->
    exists y, egm_clamp l u x = Some y /\ projection l u x y.
Proof.
  intros l u x Hl Hu Hle. unfold egm_clamp, projection.
  destruct l as [|l|]; destruct u as [|u|]; try congruence; cbn in Hle |- *; eexists; (split; [reflexivity|]).
  - unfold Rmin; destruct (Rle_dec x u); repeat split; intros; try lra; try tauto; try (f_equal; lra).
  - repeat split; intros; try tauto.
  - unfold Rmax, Rmin; destruct (Rle_dec x u); [destruct (Rle_dec x l)|destruct (Rle_dec u l)];
      repeat split; intros; try lra; try tauto; try (f_equal; lra).
  - unfold Rmax; destruct (Rle_dec x l); repeat split; intros; try lra; try tauto; try (f_equal; lra).
Qed.

Section Egm.
  Variable exo : dexo.
  Variable is_iid : bool.
  Variable s : list R.
  Variable a : nat -> R.
  Variable N_a n_h : nat.
  Variable h : list R -> R -> R -> nat -> R.
  Variable gt : list R -> R -> list R -> R.
  Variable tau : list R -> R -> list R -> R.
  Variable atau : list R -> R -> R -> R.
  Variable lb ub : list R -> R -> ext.
  Variable dr0 : nat -> R -> R.
  Variable el : (nat -> R) -> (nat -> R) -> R -> R.
  Variable nan : R.
  Notation fut := (drfut exo is_iid lb ub el nan).
  Notation rul := (rule exo is_iid lb ub dr0 el nan).
  Notation xa_ := (egm_xa exo a n_h h gt tau).
  Notation sa_ := (egm_sa exo a n_h h gt tau atau).
  Notation loop := (egm_loop exo is_iid s a N_a n_h h gt tau atau lb ub dr0 el nan).
  Notation run := (egm exo is_iid s a N_a n_h h gt tau atau lb ub dr0 el nan).
  Notation idx i := (if is_iid then 0%nat else i).

  Definition bounds_ok : Prop :=
    forall i ss, lb (ex_node exo i) ss <> PInf /\ ub (ex_node exo i) ss <> MInf /\ ext_le (lb (ex_node exo i) ss) (ub (ex_node exo i) ss).

  Lemma drfut_projection : bounds_ok -> forall sa0 xa0 i ss,
      projection (lb (ex_node exo (idx i)) ss) (ub (ex_node exo (idx i)) ss) (el (sa0 (idx i)) (xa0 (idx i)) ss) (fut sa0 xa0 i ss).
  Proof.
    intros Hb sa0 xa0 i ss. unfold drfut. destruct (Hb (idx i) ss) as (H1 & H2 & H3).
    destruct (clamp_projection _ _ (el (sa0 (idx i)) (xa0 (idx i)) ss) H1 H2 H3) as (y & E & Hp). cbv zeta. rewrite E. exact Hp.
  Qed.

  Lemma response : forall dr i p,
      egm_response n_h (dp_n (ex_dp exo) i) (dp_weight (ex_dp exo) i) (dp_node (ex_dp exo) i) dr h gt tau atau
        (ex_node exo i) (a p) (xa_ dr i p) (sa_ dr i p).
  Proof.
    intros dr i p. exists (map (egm_z exo a h gt dr i p) (seq 0 n_h)).
    split; [rewrite map_length, seq_length; reflexivity|]. split; [|split; reflexivity].
    intros k Hk. rewrite nth_map_seq by assumption. unfold egm_z.
    rewrite (for_range_sum _ (fun j => dp_weight (ex_dp exo) i j *
       h (dp_node (ex_dp exo) i j) (gt (ex_node exo i) (a p) (dp_node (ex_dp exo) i j))
         (dr j (gt (ex_node exo i) (a p) (dp_node (ex_dp exo) i j))) k)). lra.
  Qed.

  Lemma egm_dist_is : forall x y, (0 < ex_n exo * N_a)%nat -> distance2_is (ex_n exo) N_a x y (egm_dist exo N_a x y).
  Proof.
    intros x y Hs. unfold egm_dist. set (v := fun q => _). assert (HN : (0 < N_a)%nat) by nia. split.
    - intros i q Hi Hq. pose proof (supnorm_ge (ex_n exo * N_a) v (i * N_a + q) ltac:(nia)) as H. unfold v at 1 in H.
      rewrite Nat.div_add_l, (Nat.div_small q), Nat.add_0_r in H by lia.
      rewrite Nat.add_comm, Nat.mod_add, Nat.mod_small in H by lia. exact H.
    - destruct (supnorm_attained _ v Hs) as (q & Hq & E). exists (q / N_a)%nat, (q mod N_a)%nat.
      split; [apply Nat.div_lt_upper_bound; lia|]. split; [apply Nat.mod_upper_bound; lia|]. rewrite E. reflexivity.
  Qed.

  (** What the loop returns. *)
  Lemma egm_loop_run : forall tol fuel it sa0 xa0 r, loop tol fuel it sa0 xa0 = Ok r ->
      (it <= egm_it r < it + fuel)%nat /\
      (egm_converged r = true <-> egm_eta r < tol) /\
      (egm_converged r = false -> egm_it r = (it + fuel - 1)%nat) /\
      exists sa xa, let dr := rul (egm_it r) sa xa in
        (egm_it r = it -> sa = sa0 /\ xa = xa0) /\
        egm_eta r = egm_error exo N_a (egm_it r) (xa_ dr) xa (sa_ dr) sa /\
        forall i n, egm_values r i n =
          if egm_converged r then dr i (nth n s 0) else rul (egm_it r) (sa_ dr) (xa_ dr) i (nth n s 0).
  Proof.
    intros tol fuel. induction fuel as [|fuel IH]; intros it sa0 xa0 r H; [discriminate|]. cbn [egm_loop] in H.
    match type of H with context [Rlt_dec ?E tol] => set (e := E) in * end.
    destruct (Rlt_dec e tol) as [Hlt|Hge].
    - injection H as <-. cbn. split; [lia|]. split; [split; [intros; assumption|reflexivity]|]. split; [discriminate|].
      exists sa0, xa0. repeat split.
    - destruct fuel as [|fuel'].
      + injection H as <-. cbn. split; [lia|]. split; [split; [discriminate|intros; contradiction]|]. split; [intros; lia|].
        exists sa0, xa0. repeat split.
      + apply IH in H. destruct H as (Hit & Hc & Hf & sa & xa & H0 & He & Hv). split; [lia|]. split; [exact Hc|].
        split; [intros Q; rewrite (Hf Q); lia|]. exists sa, xa. cbv zeta. split; [lia|]. split; assumption.
  Qed.

  Lemma egm_run : forall tol maxit r, run true tol maxit = Ok r ->
      (egm_it r < maxit)%nat /\
      (egm_converged r = true <-> egm_eta r < tol) /\
      (egm_converged r = false -> egm_it r = (maxit - 1)%nat) /\
      exists sa xa, let dr := rul (egm_it r) sa xa in
        egm_eta r = egm_error exo N_a (egm_it r) (xa_ dr) xa (sa_ dr) sa /\
        forall i n, egm_values r i n =
          if egm_converged r then dr i (nth n s 0) else rul (egm_it r) (sa_ dr) (xa_ dr) i (nth n s 0).
  Proof.
    intros tol maxit r H. unfold egm in H. match type of H with (if ?b then _ else _) = _ => destruct b end; [discriminate|].
    apply egm_loop_run in H. destruct H as (Hit & Hc & Hf & sa & xa & _ & He & Hv).
    split; [lia|]. split; [exact Hc|]. split; [exact Hf|]. exists sa, xa. split; assumption.
  Qed.

  Lemma egm_bounds : bounds_ok -> forall tol maxit r, run true tol maxit = Ok r -> tol <= 1 -> (2 <= maxit)%nat ->
      forall i n, let m := ex_node exo (idx i) in
        ext_le_l (lb m (nth n s 0)) (egm_values r i n) /\ ext_le_r (egm_values r i n) (ub m (nth n s 0)).
  Proof.
    intros Hb tol maxit r H Ht Hm i n. cbv zeta.
    destruct (egm_run tol maxit r H) as (Hit & Hc & Hf & sa & xa & He & Hv).
    assert (Hpos : (0 < egm_it r)%nat).
    { destruct (egm_converged r) eqn:E; [|rewrite (Hf eq_refl); lia].
      destruct (egm_it r) eqn:Ei; [|lia]. exfalso. pose proof (proj1 Hc eq_refl) as Q. rewrite He in Q.
      unfold egm_error in Q. cbn in Q. lra. }
    rewrite Hv. destruct (egm_it r) as [|k]; [lia|]. cbn [rule].
    destruct (egm_converged r); [destruct (drfut_projection Hb sa xa i (nth n s 0)) as (A & B & _)
                                |match goal with |- context [fut ?x ?y i ?z] => destruct (drfut_projection Hb x y i z) as (A & B & _) end];
      split; assumption.
  Qed.

  Lemma egm_converges : bounds_ok -> forall tol maxit r, run true tol maxit = Ok r -> tol <= 1 -> egm_converged r = true ->
      (0 < ex_n exo * N_a)%nat /\
      exists (X : nat -> R -> R) sa xa sa' xa' e1 e2,
        (forall i ss, projection (lb (ex_node exo (idx i)) ss) (ub (ex_node exo (idx i)) ss)
                        (el (sa (idx i)) (xa (idx i)) ss) (X i ss)) /\
        (forall i n, egm_values r i n = X i (nth n s 0)) /\
        (forall i p, egm_response n_h (dp_n (ex_dp exo) i) (dp_weight (ex_dp exo) i) (dp_node (ex_dp exo) i) X
                       h gt tau atau (ex_node exo i) (a p) (xa' i p) (sa' i p)) /\
        distance2_is (ex_n exo) N_a xa' xa e1 /\ distance2_is (ex_n exo) N_a sa' sa e2 /\ e1 + e2 < tol.
  Proof.
    intros Hb tol maxit r H Ht Hconv.
    destruct (egm_run tol maxit r H) as (Hit & Hc & _ & sa & xa & He & Hv).
    pose proof (proj1 Hc Hconv) as Q. rewrite He in Q. unfold egm_error in Q.
    destruct (Nat.ltb_spec 1 (egm_it r)) as [Hi|Hi]; [|lra].
    assert (Hs : (0 < ex_n exo * N_a)%nat).
    { unfold egm in H. destruct (Nat.eqb_spec (ex_n exo * N_a) 0) as [E|E]; [|lia]. cbn [andb] in H.
      destruct (Nat.ltb_spec 2 maxit); [|lia]. destruct (Rlt_dec 1 tol); [lra|]. cbn in H. discriminate. }
    split; [exact Hs|].
    destruct (egm_it r) as [|k] eqn:Ei; [lia|]. cbn [rule] in *.
    exists (fut sa xa), sa, xa, (sa_ (fut sa xa)), (xa_ (fut sa xa)). do 2 eexists.
    split; [intros; apply drfut_projection; exact Hb|].
    split; [intros i n; rewrite Hv, Hconv; reflexivity|].
    split; [intros; apply response|]. split; [apply egm_dist_is; exact Hs|]. split; [apply egm_dist_is; exact Hs|]. exact Q.
  Qed.
  (** The iterates: policies at the post-states before iteration [t]. *)
  Fixpoint iter_sx (t : nat) : (nat -> nat -> R) * (nat -> nat -> R) :=
    match t with
    | O => (fun _ _ => 0, fun _ _ => 0)
    | S t' => let dr := rul t' (fst (iter_sx t')) (snd (iter_sx t')) in (sa_ dr, xa_ dr)
    end.

  Lemma egm_loop_iterates : forall tol fuel it r,
      loop tol fuel it (fst (iter_sx it)) (snd (iter_sx it)) = Ok r ->
      forall i n, egm_values r i n =
        rul (egm_it r) (fst (iter_sx (if egm_converged r then egm_it r else S (egm_it r))))
                       (snd (iter_sx (if egm_converged r then egm_it r else S (egm_it r)))) i (nth n s 0).
  Proof.
    intros tol fuel. induction fuel as [|fuel IH]; intros it r H i n; [discriminate|]. cbn [egm_loop] in H.
    match type of H with context [Rlt_dec ?E tol] => set (e := E) in * end.
    destruct (Rlt_dec e tol) as [Hlt|Hge].
    - injection H as <-. reflexivity.
    - destruct fuel as [|fuel'].
      + injection H as <-. reflexivity.
      + apply (IH (S it) r). exact H.
  Qed.

  Lemma egm_iterates : bounds_ok -> forall tol maxit r, run true tol maxit = Ok r -> (1 <= egm_it r)%nat ->
      exists (X : nat -> nat -> R -> R) (sa xa : nat -> nat -> nat -> R),
        X 0%nat = dr0 /\
        (forall t i p, egm_response n_h (dp_n (ex_dp exo) i) (dp_weight (ex_dp exo) i) (dp_node (ex_dp exo) i) (X t)
                       h gt tau atau (ex_node exo i) (a p) (xa (S t) i p) (sa (S t) i p)) /\
        (forall t i ss, projection (lb (ex_node exo (idx i)) ss) (ub (ex_node exo (idx i)) ss)
                        (el (sa (S t) (idx i)) (xa (S t) (idx i)) ss) (X (S t) i ss)) /\
        (forall i n, egm_values r i n = X (if egm_converged r then egm_it r else S (egm_it r)) i (nth n s 0)).
  Proof.
    intros Hb tol maxit r H Hit.
    exists (fun t => rul t (fst (iter_sx t)) (snd (iter_sx t))), (fun t => fst (iter_sx t)), (fun t => snd (iter_sx t)).
    split; [reflexivity|]. split; [intros t i p; apply response|].
    split; [intros t i ss; apply drfut_projection; exact Hb|].
    intros i n. unfold egm in H. match type of H with (if ?b then _ else _) = _ => destruct b end; [discriminate|].
    rewrite (egm_loop_iterates tol maxit 0 r H i n).
    destruct (egm_it r) as [|k]; [lia|]. destruct (egm_converged r); reflexivity.
  Qed.
End Egm.

(** One iteration: the initial rule is returned as it is, here 5 with an upper bound of 1. *)
Lemma egm_one_iteration_refuted : forall el nan,
    exists r, egm one_exo false [0] (fun p => INR p) 2 1 (fun _ _ X _ => X) (fun _ a _ => a) (fun _ _ z => hd 0 z) (fun _ a x => a + x)
                  (fun _ _ => Fin 0) (fun _ _ => Fin 1) (fun _ _ => 5) el nan true (1 / 1000000) 1 = Ok r /\
      egm_values r 0%nat 0%nat = 5.
Proof.
  intros el nan. unfold egm. cbn [egm_loop Nat.ltb Nat.leb andb ex_n one_exo Nat.mul Nat.add Nat.eqb].
  unfold egm_error. cbn [Nat.ltb Nat.leb]. destruct (Rlt_dec 1 (1 / 1000000)) as [H|_]; [lra|].
  eexists. split; reflexivity.
Qed.

Lemma egm_zero : forall exo is_iid s a N_a n_h h gt tau atau lb ub dr0 el nan tol,
    egm exo is_iid s a N_a n_h h gt tau atau lb ub dr0 el nan true tol 0 = Err ExcName.
Proof.
  intros. unfold egm. replace (Nat.ltb 2 0) with false by reflexivity. cbn [andb]. rewrite andb_false_r. reflexivity.
Qed.

(** Quadrature points off the grid: from node 0 the next point is 1, where the control must be 1; the rule used there is
    bounded by the bounds of node 0. *)
Lemma egm_gdp_refuted : forall el nan sa0 xa0 ss,
    let lb := fun m _ => Fin (hd 0 m) in
    dp_node (ex_dp (gdp_exo shift_gdp)) 0 0 = [1] /\
    ~ ext_le_l (lb (dp_node (ex_dp (gdp_exo shift_gdp)) 0 0) ss)
               (drfut (gdp_exo shift_gdp) false lb lb el nan sa0 xa0 0 ss).
Proof.
  intros el nan sa0 xa0 ss lb. split; [reflexivity|]. unfold drfut, lb, egm_clamp. cbn.
  unfold Rmax, Rmin. repeat match goal with |- context [Rle_dec ?x ?y] => destruct (Rle_dec x y) end; lra.
Qed.

Lemma egm_report :
  forall exo is_iid s a N_a n_h h gt tau atau lb ub dr0 el nan tol maxit r,
    egm exo is_iid s a N_a n_h h gt tau atau lb ub dr0 el nan true tol maxit = Ok r ->
    (egm_it r < maxit)%nat /\ (egm_converged r = true <-> egm_eta r < tol) /\
    (egm_converged r = false -> egm_it r = (maxit - 1)%nat).
Proof. intros until r. intros H. apply egm_run in H. destruct H as (A & B & C & _). repeat split; try assumption; apply B. Qed.

Lemma egm_never_runs :
  forall exo is_iid s a N_a n_h h gt tau atau lb ub dr0 el nan tol,
    egm exo is_iid s a N_a n_h h gt tau atau lb ub dr0 el nan true tol 0 = Err ExcName /\
    forall maxit, egm exo is_iid s a N_a n_h h gt tau atau lb ub dr0 el nan false tol maxit
                  = Err (ExcGeneric "You must supply a grid for the post-states.").
Proof. intros. split; [apply egm_zero|reflexivity]. Qed.

Lemma egm_small :
  forall nan,
  exists r, egm one_exo false [0] (fun p => INR p) 2 1 (fun _ _ X _ => X) (fun _ a _ => a) (fun _ a _ => a / 2) (fun _ a x => a + x)
                (fun _ _ => Fin 0) (fun _ _ => Fin 1) (fun _ _ => 5) (fun _ _ x => x) nan true (1 / 1000000) 10 = Ok r /\
    egm_converged r = true /\ egm_it r = 2%nat.
Proof.
  intros nan. unfold egm. cbn [ex_n one_exo Nat.mul Nat.add Nat.eqb andb].
  set (f7 := 7%nat). change 10%nat with (S (S (S f7))). cbn [egm_loop].
  unfold egm_error at 1. cbn [Nat.ltb Nat.leb]. destruct (Rlt_dec 1 (1 / 1000000)) as [H|_]; [lra|].
  unfold egm_error at 1. cbn [Nat.ltb Nat.leb]. destruct (Rlt_dec 1 (1 / 1000000)) as [H|_]; [lra|].
  match goal with |- context [Rlt_dec ?E (1 / 1000000)] => assert (Q : E = 0) end.
  { unfold egm_error. cbn [Nat.ltb Nat.leb]. unfold egm_dist.
    rewrite !(proj2 (supnorm_zero_iff _ _)); [lra| |]; intros q Hq; unfold egm_sa, egm_xa; lra. }
  rewrite Q. destruct (Rlt_dec 0 (1 / 1000000)) as [_|H]; [|lra]. eexists. split; [reflexivity|]. split; reflexivity.
Qed.
