(** Proofs for C156. *)
From Coq Require Import Reals List Arith Lia Lra.
From Verif.Base Require Import Prelude Arrays Sums Norms Ext.
From Verif.Model Require Import Discretization Grids Distributions Processes DecisionRule TimeIteration
  ImprovedTimeIteration ValueIteration Egm Verbose VerboseAlgos.
From Verif.Spec Require Import VerboseAlgos.
Import ListNotations.
Open Scope R_scope.

Lemma gain_ratio : forall p e, gain p e = ratio p e.
Proof. reflexivity. Qed.

Section E.
  Variable exo : dexo.
  Variable is_iid : bool.
  Variable s : list R.
  Variable a : nat -> R.
  Variable N_a n_h : nat.
  Variable h : list R -> R -> R -> nat -> R.
  Variable gt : list R -> R -> list R -> R.
  Variable tau : list R -> R -> list R -> R.
  Variable atau : list R -> R -> R -> R.
  Variable lb ub : list R -> R -> ext.
  Variable dr0 : nat -> R -> R.
  Variable eval_linear : (nat -> R) -> (nat -> R) -> R -> R.
  Variable nan : R.
  Notation log := (egm_log exo is_iid s a N_a n_h h gt tau atau lb ub dr0 eval_linear nan).
  Notation loop := (egm_loop exo is_iid s a N_a n_h h gt tau atau lb ub dr0 eval_linear nan).

  Lemma rows_only_app : forall l1 l2, rows_only (l1 ++ l2) = rows_only l1 ++ rows_only l2.
  Proof. intros. unfold rows_only. rewrite map_app, concat_app. reflexivity. Qed.
  Lemma bare_only_app : forall l1 l2, bare_only (l1 ++ l2) = bare_only l1 ++ bare_only l2.
  Proof. intros. unfold bare_only. rewrite map_app, concat_app. reflexivity. Qed.

  Lemma rows_only_none : forall l, (forall x, In x l -> exists it i j, x = Bare it i j) -> rows_only l = [].
  Proof.
    induction l as [|x l IH]; intros H; [reflexivity|].
    destruct (H x (or_introl eq_refl)) as (it & i & j & ->). unfold rows_only in *. cbn [map concat app].
    apply IH. intros y Hy. apply H. right; exact Hy.
  Qed.

  Lemma rows_bare : forall it, rows_only (bare_lines exo it) = [].
  Proof.
    intros it. apply rows_only_none. intros x Hx. unfold bare_lines in Hx. apply in_concat in Hx.
    destruct Hx as (l & Hl & Hx). apply in_map_iff in Hl. destruct Hl as (i & <- & _).
    apply in_map_iff in Hx. destruct Hx as (j & <- & _). eauto.
  Qed.

  Lemma bare_only_map : forall it i l, bare_only (map (fun j => Bare it i j) l) = map (fun j => (it, i, j)) l.
  Proof. induction l as [|j l IH]; [reflexivity|]. unfold bare_only in *. cbn [map concat app]. rewrite IH. reflexivity. Qed.

  Lemma bare_bare : forall it, bare_only (bare_lines exo it) = visits (ex_n exo) (dp_n (ex_dp exo)) it 1.
  Proof.
    intros it. unfold visits. cbn [seq map concat]. rewrite app_nil_r. unfold bare_lines.
    induction (seq 0 (ex_n exo)) as [|i l IH]; [reflexivity|]. cbn [map concat].
    rewrite bare_only_app, bare_only_map, IH. reflexivity.
  Qed.

  Lemma visits_S : forall m f first n, visits m f first (S n) = visits m f first 1 ++ visits m f (S first) n.
  Proof. intros. unfold visits. cbn [seq map concat]. rewrite app_nil_r. reflexivity. Qed.

  Lemma egm_log_loop : forall verbose tol fuel it sa0 xa0,
      snd (log verbose tol fuel it sa0 xa0) = loop tol fuel it sa0 xa0.
  Proof.
    induction fuel as [|fuel IH]; intros it sa0 xa0; [reflexivity|]. cbn [egm_log egm_loop].
    match goal with |- context [Rlt_dec ?e tol] => destruct (Rlt_dec e tol) end; [reflexivity|].
    destruct fuel as [|fuel]; [reflexivity|].
    match goal with |- snd (let (_, _) := ?L in _) = _ => rewrite <- IH with (sa0 := egm_sa exo a n_h h gt tau atau (rule exo is_iid lb ub dr0 eval_linear nan it sa0 xa0)); destruct L as [rest r] end.
    reflexivity.
  Qed.

  Lemma egm_loop_S : forall tol k it sa0 xa0, loop tol (S (S k)) it sa0 xa0 =
      let dr := rule exo is_iid lb ub dr0 eval_linear nan it sa0 xa0 in
      let xa := egm_xa exo a n_h h gt tau dr in
      let sa := egm_sa exo a n_h h gt tau atau dr in
      let e := egm_error exo N_a it xa xa0 sa sa0 in
      if Rlt_dec e tol then
        Ok {| egm_values := fun i n => rule exo is_iid lb ub dr0 eval_linear nan it sa0 xa0 i (nth n s 0); egm_it := it; egm_converged := true; egm_eta := e |}
      else loop tol (S k) (S it) sa xa.
  Proof. reflexivity. Qed.

  Lemma egm_log_run : forall verbose tol fuel it sa0 xa0,
      exists o etas, snd (log verbose tol (S fuel) it sa0 xa0) = Ok o /\
        egm_it o = (it + length etas)%nat /\ (length etas <= fuel)%nat /\
        bare_only (fst (log verbose tol (S fuel) it sa0 xa0))
          = visits (ex_n exo) (dp_n (ex_dp exo)) it (S (length etas)) /\
        rows_only (fst (log verbose tol (S fuel) it sa0 xa0))
          = (if verbose then combine (seq it (S (length etas))) (etas ++ [egm_eta o]) else []) /\
        Forall (fun e => tol <= e) etas /\
        (egm_converged o = true <-> egm_eta o < tol) /\ (egm_converged o = false -> length etas = fuel) /\
        (forall k, (it + k <= 1)%nat -> (k <= length etas)%nat -> nth k (etas ++ [egm_eta o]) 0 = 1) /\
        (forall k, (k <= length etas)%nat -> exists o', loop tol (S k) it sa0 xa0 = Ok o' /\
           egm_it o' = (it + k)%nat /\ egm_eta o' = nth k (etas ++ [egm_eta o]) 0).
  Proof.
    induction fuel as [|fuel IH]; intros it sa0 xa0; [|remember (S fuel) as fuel1 eqn:F1]; cbn [egm_log];
      [|rewrite F1 in IH |- *];
      set (dr := rule exo is_iid lb ub dr0 eval_linear nan it sa0 xa0);
      set (xa := egm_xa exo a n_h h gt tau dr); set (sa := egm_sa exo a n_h h gt tau atau dr);
      set (e := egm_error exo N_a it xa xa0 sa sa0);
      assert (E1 : (it <= 1)%nat -> e = 1)
        by (intros Hit; unfold e, egm_error; destruct (Nat.ltb_spec 1 it); [lia | reflexivity]);
      assert (L1 : exists o', loop tol 1 it sa0 xa0 = Ok o' /\ egm_it o' = it /\ egm_eta o' = e)
        by (cbn [egm_loop]; fold dr; fold xa; fold sa; fold e; destruct (Rlt_dec e tol); eexists; (split; [reflexivity|]); split; reflexivity);
      assert (L2 : ~ e < tol -> forall k, loop tol (S (S k)) it sa0 xa0 = loop tol (S k) (S it) sa xa)
        by (intros Hne k; rewrite (egm_loop_S tol k it sa0 xa0); cbv zeta; fold dr; fold xa; fold sa; fold e;
            destruct (Rlt_dec e tol); [contradiction | reflexivity]);
      assert (RL : rows_only (bare_lines exo it ++ (if verbose then [Row it e] else [])) = (if verbose then [(it, e)] else []))
        by (rewrite rows_only_app, rows_bare; destruct verbose; reflexivity);
      assert (BL : bare_only (bare_lines exo it ++ (if verbose then [Row it e] else [])) = visits (ex_n exo) (dp_n (ex_dp exo)) it 1)
        by (rewrite bare_only_app, bare_bare; destruct verbose; [unfold bare_only at 1; cbn [map concat]; rewrite !app_nil_r; reflexivity | apply app_nil_r]);
      clearbody e; clearbody dr; destruct (Rlt_dec e tol) as [Hlt|Hge].
    1, 3: (exists {| egm_values := fun i n => dr i (nth n s 0); egm_it := it; egm_converged := true; egm_eta := e |}, [];
      cbn [fst snd length egm_it egm_converged egm_eta app];
      split; [reflexivity|]; split; [lia|]; split; [lia|]; split; [exact BL|];
      split; [rewrite RL; destruct verbose; reflexivity|]; split; [constructor|];
      split; [split; intros; [exact Hlt | reflexivity]|]; split; [discriminate|];
      split; [intros k Hk Hk'; assert (k = 0%nat) by lia; subst k; cbn [nth]; apply E1; lia|];
      intros k Hk; assert (k = 0%nat) by lia; subst k; cbn [nth]; rewrite Nat.add_0_r; exact L1).
    - eexists; exists []. cbn [fst snd length]. split; [reflexivity|]. cbn [egm_it egm_converged egm_eta app].
      split; [lia|]; split; [lia|]; split; [exact BL|];
      split; [rewrite RL; destruct verbose; reflexivity|]; split; [constructor|];
      split; [split; intros; [discriminate | contradiction]|]; split; [reflexivity|];
      split; [intros k Hk Hk'; assert (k = 0%nat) by lia; subst k; cbn [nth]; apply E1; lia|];
      intros k Hk; assert (k = 0%nat) by lia; subst k; cbn [nth]; rewrite Nat.add_0_r; exact L1.
    - specialize (IH (S it) sa xa). destruct (log verbose tol (S fuel) (S it) sa xa) as [rest r].
      cbn [fst snd] in IH |- *. destruct IH as (o & etas & R & I1 & I2 & I3 & I4 & I5 & I6 & I7 & I8 & I9).
      exists o, (e :: etas). split; [exact R|]. cbn [length app].
      split; [lia|]. split; [lia|]. split; [rewrite bare_only_app, BL, I3, (visits_S _ _ it (S (length etas))); reflexivity|].
      split. { rewrite rows_only_app, RL, I4. destruct verbose; reflexivity. }
      split; [constructor; [lra | exact I5]|]. split; [exact I6|]. split; [intros H; rewrite (I7 H); reflexivity|].
      split; [intros [|k] Hk Hk'; cbn [nth]; [apply E1; lia|]; apply I8; lia|].
      intros [|k] Hk; cbn [nth]; [rewrite Nat.add_0_r; exact L1|].
      destruct (I9 k ltac:(lia)) as (o' & Q1 & Q2 & Q3). exists o'. rewrite (L2 Hge). split; [exact Q1|]. split; [lia | exact Q3].
  Qed.
End E.

Section P.
  Variable g : list R -> list R -> list R -> list R -> list R.
  Variable val : val_fun.
  Variable exo : dexo.
  Variable s : list (list R).
  Variable n_x n_v : nat.
  Variable interpolate : tensor -> nat -> nat -> list R -> list R.

  Lemma ep_rows_loop : forall x dr tol fuel it err prev v0 stored,
      snd (ep_rows g val exo s n_x n_v interpolate x dr tol fuel it err prev v0 stored)
      = ep_loop g val exo s n_x n_v interpolate x dr tol fuel it err v0 stored.
  Proof.
    induction fuel as [|fuel IH]; intros it err prev v0 stored; cbn [ep_rows ep_loop]; [reflexivity|].
    destruct (Rlt_dec tol err); [|reflexivity]. cbv zeta.
    match goal with |- snd (let (_, _) := ?L in _) = _ => destruct L as [rows r0] eqn:E end.
    cbn [snd]. rewrite <- (IH _ _ (Some (tnorm (ex_n exo) (length s) n_v
       (fun i n k => update_value g val exo s n_x n_v x v0 dr (interpolate v0) i n k - v0 i n k)))).
    rewrite E. reflexivity.
  Qed.

  Lemma last_cons : forall (l : list R) a d, last (a :: l) d = last l a.
  Proof. induction l as [|b l IH]; intros a d; [reflexivity|]. change (last (a :: b :: l) d) with (last (b :: l) d). rewrite !IH. reflexivity. Qed.

  Lemma ep_loop_S : forall x dr tol k it err v0 stored, tol < err ->
      ep_loop g val exo s n_x n_v interpolate x dr tol (S k) it err v0 stored =
      let v := update_value g val exo s n_x n_v x v0 dr (interpolate v0) in
      ep_loop g val exo s n_x n_v interpolate x dr tol k (S it)
        (tnorm (ex_n exo) (length s) n_v (fun i n k => v i n k - v0 i n k)) v (Some v0).
  Proof. intros x dr tol k it err v0 stored H. cbn [ep_loop]. destruct (Rlt_dec tol err); [reflexivity | contradiction]. Qed.

  Lemma ep_rows_run : forall x dr tol fuel it err prev v0 stored,
      let '(rows, o) := ep_rows g val exo s n_x n_v interpolate x dr tol fuel it err prev v0 stored in
      exists errs, rows = error_rows it prev errs /\ ep_iterations o = (it + length errs)%nat /\
        ep_err o = last errs err /\ Forall (fun e => tol < e) (removelast (err :: errs)) /\
        (length errs <= fuel)%nat /\ ((length errs < fuel)%nat -> ep_err o <= tol) /\
        (errs = [] -> fuel = O \/ err <= tol) /\
        (forall k, (k < length errs)%nat ->
           ep_err (ep_loop g val exo s n_x n_v interpolate x dr tol (S k) it err v0 stored) = nth k errs 0).
  Proof.
    induction fuel as [|fuel IH]; intros it err prev v0 stored; cbn [ep_rows].
    - exists []. cbn. repeat split; try lia; auto; intros; lia.
    - destruct (Rlt_dec tol err) as [H|H].
      + cbv zeta. set (v := update_value g val exo s n_x n_v x v0 dr (interpolate v0)).
        set (e := tnorm (ex_n exo) (length s) n_v (fun i n k => v i n k - v0 i n k)).
        specialize (IH (S it) e (Some e) v (Some v0)).
        destruct (ep_rows g val exo s n_x n_v interpolate x dr tol fuel (S it) e (Some e) v (Some v0)) as [rows o].
        destruct IH as (errs & -> & I1 & I2 & I3 & I4 & I5 & _ & I6). exists (e :: errs).
        split; [reflexivity|]. cbn [length]. split; [lia|]. split; [rewrite last_cons; exact I2|].
        split; [change (removelast (err :: e :: errs)) with (err :: removelast (e :: errs)); constructor; assumption|].
        split; [lia|]. split; [intros; apply I5; lia|]. split; [discriminate|].
        intros [|k] Hk; [cbn [ep_loop]; destruct (Rlt_dec tol err); [reflexivity | contradiction]|].
        rewrite ep_loop_S by exact H. cbn [nth]. apply (I6 k). lia.
      + exists []. cbn. repeat split; try lia; auto; intros; try lra; try (right; lra).
  Qed.
End P.

Lemma last_cons_gen : forall (A : Type) (l : list A) a d, last (a :: l) d = last l a.
Proof. induction l as [|b l IH]; intros a d; [reflexivity|]. change (last (a :: b :: l) d) with (last (b :: l) d). rewrite !IH. reflexivity. Qed.

Section V.
  Variable g : list R -> list R -> list R -> list R -> list R.
  Variable felicity : list R -> list R -> list R -> R.
  Variable val : val_fun.
  Variable exo : dexo.
  Variable s : list (list R).
  Variable n_x : nat.
  Variable beta : R.
  Variable v0 : R.
  Variable lb ub : list R -> list R -> list R.
  Variable interp_x : tensor -> nat -> nat -> list R -> list R.
  Variable interp_v : tensor -> nat -> nat -> list R -> list R.
  Variable call_v : tensor -> nat -> list R -> R.
  Variable node_x node_v : tensor -> tensor.
  Variable minimize : (list R -> R) -> list R -> list (R * R) -> list R.
  Notation rows_ := (vi_rows g felicity val exo s n_x beta v0 lb ub interp_x interp_v call_v node_x node_v minimize).
  Notation loop := (vi_loop g felicity val exo s n_x beta v0 lb ub interp_x interp_v call_v node_x node_v minimize).

  Lemma vi_rows_loop : forall tol fuel it ev ex pv px c0 w last,
      snd (rows_ tol fuel it ev ex pv px c0 w last) = loop tol fuel it ev ex c0 w last.
  Proof.
    induction fuel as [|fuel IH]; intros it ev ex pv px c0 w last; cbn [vi_rows vi_loop]; [reflexivity|].
    destruct (orb _ _); [|reflexivity]. cbv zeta.
    destruct (evaluate_policy _ _ _ _ _ _ _ _ _ _ _ _) as [r|e]; [|reflexivity]. cbn [bind].
    destruct (ep_values r) as [w'|]; [|reflexivity].
    destruct (Nat.eqb _ 0); [reflexivity|].
    match goal with |- snd (let (_, _) := ?L in _) = _ => destruct L as [rows o] eqn:E end.
    cbn [snd]. match type of E with rows_ _ _ _ ?a ?b ?c ?d _ _ _ = _ => rewrite <- (IH _ a b c d) end.
    rewrite E. reflexivity.
  Qed.

  (** An evaluation takes between one and 2000 steps. *)
  Lemma evaluation_steps_gen : forall maxit x dr start r, (0 < maxit)%nat ->
      evaluate_policy g val exo s n_x 1 interp_v x dr ep_tol maxit start = Ok r ->
      (1 <= ep_iterations r <= maxit)%nat.
  Proof.
    intros maxit x dr start r Hm. unfold evaluate_policy. destruct (andb _ _); [discriminate|]. intros H; injection H as <-.
    rewrite <- (ep_rows_loop g val exo s n_x 1 interp_v x dr ep_tol maxit 0 10 None start None).
    assert (K := ep_rows_run g val exo s n_x 1 interp_v x dr ep_tol maxit 0 10 None start None).
    destruct (ep_rows g val exo s n_x 1 interp_v x dr ep_tol maxit 0 10 None start None) as [rows o].
    destruct K as (errs & _ & K1 & _ & _ & K2 & _ & K3 & _). cbn [snd]. rewrite K1.
    destruct errs as [|e errs]; [|split; [cbn [length]; lia | exact K2]].
    exfalso. destruct (K3 eq_refl) as [Z|Z]; [lia|]. unfold ep_tol in Z. lra.
  Qed.

  Lemma evaluation_steps : forall x dr start r,
      evaluate_policy g val exo s n_x 1 interp_v x dr ep_tol ep_maxit start = Ok r ->
      (1 <= ep_iterations r <= ep_maxit)%nat.
  Proof. intros x dr start r. apply evaluation_steps_gen. unfold ep_maxit. lia. Qed.

  Definition unfinished (tol : R) (e : R * R) : Prop := tol < fst e \/ vi_tol_x < snd e.

  Lemma vi_loop_S : forall tol it ev ex c0 w last k, loop tol (S k) it ev ex c0 w last =
        if orb (if Rlt_dec tol ev then true else false) (if Rlt_dec vi_tol_x ex then true else false) then
          let start := if Nat.ltb 2 (S it) then node_v w else fun _ _ k => nth k [v0] 0 in
          bind (evaluate_policy g val exo s n_x 1 interp_v (node_x c0) (interp_x c0) ep_tol ep_maxit start)
            (fun ev =>
          match ep_values ev with
          | None => Err ExcAttribute
          | Some w =>
              let values_0 := node_v w in
              let controls := improve g felicity exo s n_x beta lb ub call_v minimize w c0 in
              let values := fun i n =>
                choice_total g felicity exo beta (call_v w) i (nth n s []) (at_node n_x controls i n) in
              if Nat.eqb (ex_n exo * length s * n_x) 0 then Err ExcValue else
              let err_x := tnorm (ex_n exo) (length s) n_x (fun i n k => controls i n k - c0 i n k) in
              let err_v := tnorm (ex_n exo) (length s) 1 (fun i n k => values i n - values_0 i n k) in
              loop tol k (S it) err_v err_x controls w (Some (controls, values))
          end)
        else Ok (last, it, ev, ex).
  Proof. reflexivity. Qed.

  (** The number of steps is that of an evaluation of the controls [c]. *)
  Definition evaluates (c : tensor) (n : nat) : Prop :=
    exists start r, evaluate_policy g val exo s n_x 1 interp_v (node_x c) (interp_x c) ep_tol ep_maxit start = Ok r /\
      ep_iterations r = n.

  Lemma vi_rows_run : forall tol fuel it ev ex pv px c0 w last,
      let '(rows, r) := rows_ tol fuel it ev ex pv px c0 w last in
      exists ps, rows = pass_rows it (Some pv) (Some px) ps /\ (length ps <= fuel)%nat /\
        Forall (fun p => 1 <= p_eval p <= ep_maxit)%nat ps /\
        Forall (unfinished tol) (removelast ((ev, ex) :: map (fun p => (p_v p, p_x p)) ps)) /\
        forall o it' ev' ex', r = Ok (o, it', ev', ex') ->
          it' = (it + length ps)%nat /\ (ev', ex') = List.last (map (fun p => (p_v p, p_x p)) ps) (ev, ex) /\
          ((length ps < fuel)%nat -> ev' <= tol /\ ex' <= vi_tol_x) /\
          forall k, (k < length ps)%nat -> exists c v c',
            loop tol (S k) it ev ex c0 w last = Ok (Some (c, v), (it + S k)%nat, p_v (nth k ps (Pass 0 0 0)), p_x (nth k ps (Pass 0 0 0))) /\
            (k = O -> c' = c0) /\
            ((0 < k)%nat -> exists v' e1 e2, loop tol k it ev ex c0 w last = Ok (Some (c', v'), (it + k)%nat, e1, e2)) /\
            evaluates c' (p_eval (nth k ps (Pass 0 0 0))).
  Proof.
    induction fuel as [|fuel IH]; intros it ev ex pv px c0 w last; cbn [vi_rows].
    - exists []. cbn. split; [reflexivity|]. split; [lia|]. split; [constructor|]. split; [constructor|].
      intros o it' ev' ex' H; injection H; intros; subst. split; [lia|]. split; [reflexivity|]. split; [lia|]. intros; lia.
    - generalize (vi_loop_S tol it ev ex c0 w last).
      destruct (orb (if Rlt_dec tol ev then true else false) (if Rlt_dec vi_tol_x ex then true else false)) eqn:O.
      2: { intros _. assert (D : ev <= tol /\ ex <= vi_tol_x) by (destruct (Rlt_dec tol ev), (Rlt_dec vi_tol_x ex); cbn in O; try discriminate O; split; lra).
           exists []. cbn. split; [reflexivity|]. split; [lia|]. split; [constructor|]. split; [constructor|].
           intros o it' ev' ex' H; injection H; intros; subst. split; [lia|]. split; [reflexivity|]. split; [intros _; exact D|]. intros; lia. }
      assert (U : unfinished tol (ev, ex))
        by (unfold unfinished; cbn [fst snd]; destruct (Rlt_dec tol ev), (Rlt_dec vi_tol_x ex); cbn in O; try discriminate O; tauto).
      clear O. cbv zeta.
      match goal with |- context [evaluate_policy ?a1 ?a2 ?a3 ?a4 ?a5 ?a6 ?a7 ?a8 ?a9 ?b1 ?b2 ?b3] =>
          destruct (evaluate_policy a1 a2 a3 a4 a5 a6 a7 a8 a9 b1 b2 b3) as [r0|e0] eqn:EV end;
        [|intros _; exists []; cbn; repeat split; auto; try lia; try constructor; discriminate].
      cbn [bind]. assert (EV2 := EV). apply evaluation_steps in EV.
      destruct (ep_values r0) as [w'|]; [|intros _; exists []; cbn; repeat split; auto; try lia; try constructor; discriminate].
      destruct (Nat.eqb _ 0); [intros _; exists []; cbn; repeat split; auto; try lia; try constructor; discriminate|].
      intros ST.
      match goal with |- context [vi_rows _ _ _ _ _ _ _ _ _ _ _ _ _ _ _ _ tol fuel (S it) ?A ?B ?A ?B ?C w' (Some (?C, ?V))] =>
          specialize (IH (S it) A B A B C w' (Some (C, V))); set (ev1 := A) in *; set (ex1 := B) in *; set (v1 := V) in *; set (c1 := C) in * end.
      clearbody ev1 ex1 v1 c1.
      destruct (rows_ tol fuel (S it) ev1 ex1 ev1 ex1 c1 w' (Some (c1, v1))) as [rows r].
      destruct IH as (ps & -> & I1 & I2 & I3 & I4). exists (Pass ev1 ex1 (ep_iterations r0) :: ps).
      split; [reflexivity|]. cbn [length map p_v p_x p_eval]. split; [lia|].
      split; [constructor; [exact EV | exact I2]|].
      split; [change (removelast ((ev, ex) :: (ev1, ex1) :: map (fun p => (p_v p, p_x p)) ps)) with ((ev, ex) :: removelast ((ev1, ex1) :: map (fun p => (p_v p, p_x p)) ps)); constructor; assumption|].
      intros o it' ev' ex' H. destruct (I4 o it' ev' ex' H) as (J1 & J2 & J3 & J4). split; [lia|].
      assert (EVL : evaluates c0 (ep_iterations r0)) by (unfold evaluates; eauto).
      split; [|split; [intros; apply J3; lia|]].
      2: { intros [|[|k]] Hk; cbn [nth p_v p_x p_eval].
           - exists c1, v1, c0. rewrite ST. cbn [vi_loop]. rewrite Nat.add_1_r.
             split; [reflexivity|]. split; [reflexivity|]. split; [lia | exact EVL].
           - destruct (J4 0%nat ltac:(lia)) as (c & v & c' & Q1 & Q2 & Q3 & Q4). rewrite (Q2 eq_refl) in Q4.
             exists c, v, c1. rewrite !ST. rewrite Q1. replace (it + 2)%nat with (S it + 1)%nat by lia.
             split; [reflexivity|]. split; [discriminate|].
             split; [intros _; exists v1, ev1, ex1; cbn [vi_loop]; rewrite Nat.add_1_r; reflexivity | exact Q4].
           - destruct (J4 (S k) ltac:(lia)) as (c & v & c' & Q1 & Q2 & Q3 & Q4).
             exists c, v, c'. rewrite !ST. rewrite Q1. replace (it + S (S (S k)))%nat with (S it + S (S k))%nat by lia.
             split; [reflexivity|]. split; [discriminate|]. split; [|exact Q4]. intros _.
             destruct (Q3 ltac:(lia)) as (v' & e1 & e2 & Q5). exists v', e1, e2. rewrite Q5.
             replace (it + S (S k))%nat with (S it + S k)%nat by lia. reflexivity. }
      rewrite J2. symmetry. apply last_cons_gen.
  Qed.
End V.

Lemma pass_rows_first : forall ps, pass_rows 0 (Some 0) (Some 0) ps = pass_rows 0 None None ps.
Proof. intros [|p ps]; [reflexivity|]. cbn [pass_rows]. unfold ratio at 1 2. destruct (Req_EM_T 0 0); [reflexivity|congruence]. Qed.

Lemma egm_prints : forall exo is_iid s a N_a n_h h gt tau atau lb ub dr0 el nan verbose tol maxit lines r,
    egm exo is_iid s a N_a n_h h gt tau atau lb ub dr0 el nan true tol maxit = Ok r ->
    fst (egm_log exo is_iid s a N_a n_h h gt tau atau lb ub dr0 el nan verbose tol maxit 0 (fun _ _ => 0) (fun _ _ => 0)) = lines ->
    snd (egm_log exo is_iid s a N_a n_h h gt tau atau lb ub dr0 el nan verbose tol maxit 0 (fun _ _ => 0) (fun _ _ => 0)) = Ok r /\
    bare_only lines = visits (ex_n exo) (dp_n (ex_dp exo)) 0 (S (egm_it r)) /\
    exists etas, length etas = S (egm_it r) /\
      rows_only lines = (if verbose then combine (seq 0 (S (egm_it r))) etas else []) /\
      nth (egm_it r) etas 0 = egm_eta r /\
      (forall k, (k < egm_it r)%nat -> tol <= nth k etas 0) /\
      (forall k, (k <= 1)%nat -> (k <= egm_it r)%nat -> nth k etas 0 = 1) /\
      (forall k, (k <= egm_it r)%nat -> exists o,
         egm exo is_iid s a N_a n_h h gt tau atau lb ub dr0 el nan true tol (S k) = Ok o /\ egm_it o = k /\ egm_eta o = nth k etas 0).
Proof.
  intros exo is_iid s a N_a n_h h gt tau atau lb ub dr0 el nan verbose tol maxit lines r H L. unfold egm in H.
  destruct (andb (Nat.eqb (ex_n exo * N_a) 0) _) eqn:AB; [discriminate|]. split; [rewrite egm_log_loop; exact H|].
  destruct maxit as [|fuel]; [discriminate H|].
  destruct (egm_log_run exo is_iid s a N_a n_h h gt tau atau lb ub dr0 el nan verbose tol fuel 0 (fun _ _ => 0) (fun _ _ => 0))
    as (o & etas & R1 & I1 & I2 & I3 & I4 & I5 & I6 & I7 & I8 & I9).
  rewrite egm_log_loop, H in R1. injection R1 as <-. rewrite L in I3, I4. cbn [plus] in I1. rewrite I1.
  split; [exact I3|]. exists (etas ++ [egm_eta r]).
  split; [rewrite app_length; cbn [length]; lia|]. split; [exact I4|].
  split; [rewrite app_nth2, Nat.sub_diag by lia; reflexivity|]. split; [|split].
  - intros k Hk. rewrite app_nth1 by exact Hk. rewrite Forall_forall in I5. apply I5. apply nth_In. exact Hk.
  - intros k Hk Hk'. apply I8; [exact Hk | exact Hk'].
  - intros k Hk. unfold egm.
    replace (andb (Nat.eqb (ex_n exo * N_a) 0) (andb (Nat.ltb 2 (S k)) (if Rlt_dec 1 tol then false else true))) with false; [exact (I9 k Hk)|].
    symmetry. destruct (Nat.eqb (ex_n exo * N_a) 0); [|reflexivity]. cbn [andb] in *.
    destruct (Rlt_dec 1 tol); [apply Bool.andb_false_r|]. rewrite Bool.andb_true_r in *.
    apply Nat.ltb_ge in AB. apply Nat.ltb_ge. lia.
Qed.

Lemma egm_never_silent : forall exo is_iid s a N_a n_h h gt tau atau lb ub dr0 el nan tol maxit r i,
    egm exo is_iid s a N_a n_h h gt tau atau lb ub dr0 el nan true tol maxit = Ok r ->
    (i < ex_n exo)%nat -> (0 < dp_n (ex_dp exo) i)%nat ->
    forall it, (it <= egm_it r)%nat ->
    In (Bare it i 0) (fst (egm_log exo is_iid s a N_a n_h h gt tau atau lb ub dr0 el nan false tol maxit 0 (fun _ _ => 0) (fun _ _ => 0))).
Proof.
  intros until 1. intros Hi Hj it Hit.
  destruct (egm_prints _ _ _ _ _ _ _ _ _ _ _ _ _ _ _ false _ _ _ _ H eq_refl) as (_ & B & _).
  set (lines := fst _) in *. clearbody lines.
  assert (K : In (it, i, 0%nat) (bare_only lines)).
  { rewrite B. unfold visits. apply in_concat. eexists. split.
    - apply in_map_iff. exists it. split; [reflexivity | apply in_seq; lia].
    - apply in_concat. eexists. split.
      + apply in_map_iff. exists i. split; [reflexivity | apply in_seq; lia].
      + apply in_map_iff. exists 0%nat. split; [reflexivity | apply in_seq; lia]. }
  unfold bare_only in K. apply in_concat in K. destruct K as (l & Hl & Hx). apply in_map_iff in Hl.
  destruct Hl as (x & <- & Hin). destruct x as [it' i' j'|]; [|destruct Hx]. destruct Hx as [Hx|[]]. injection Hx as -> -> ->. exact Hin.
Qed.

Lemma evaluate_prints : forall g val exo s n_x n_v ip x dr tol maxit v0 r,
    evaluate_policy g val exo s n_x n_v ip x dr tol maxit v0 = Ok r ->
    snd (ep_rows g val exo s n_x n_v ip x dr tol maxit 0 10 None v0 None) = r /\
    exists errs, fst (ep_rows g val exo s n_x n_v ip x dr tol maxit 0 10 None v0 None) = error_rows 0 None errs /\
      length errs = ep_iterations r /\ ep_err r = last errs 10 /\ Forall (fun e => tol < e) (removelast (10 :: errs)) /\
      (ep_iterations r <= maxit)%nat /\ ((ep_iterations r < maxit)%nat -> ep_err r <= tol) /\
      (forall k, (k < ep_iterations r)%nat -> exists o,
         evaluate_policy g val exo s n_x n_v ip x dr tol (S k) v0 = Ok o /\ ep_err o = nth k errs 0).
Proof.
  intros g val exo s n_x n_v ip x dr tol maxit v0 r H. unfold evaluate_policy in H. destruct (andb (Nat.eqb (ex_n exo * length s * n_v) 0) _) eqn:AB; [discriminate|].
  injection H as H. split; [rewrite ep_rows_loop; exact H|].
  assert (K := ep_rows_run g val exo s n_x n_v ip x dr tol maxit 0 10 None v0 None).
  assert (L := ep_rows_loop g val exo s n_x n_v ip x dr tol maxit 0 10 None v0 None).
  destruct (ep_rows g val exo s n_x n_v ip x dr tol maxit 0 10 None v0 None) as [rows o]. cbn [fst snd] in *.
  rewrite H in L. subst o. destruct K as (errs & K1 & K2 & K3 & K4 & K5 & K6 & _ & K7). cbn [plus] in K2.
  exists errs. rewrite K2. repeat split; auto.
  intros k Hk. unfold evaluate_policy.
  replace (andb (Nat.eqb (ex_n exo * length s * n_v) 0) (andb (negb (Nat.eqb (S k) 0)) (if Rlt_dec tol 10 then true else false))) with false.
  - eexists. split; [reflexivity | exact (K7 k Hk)].
  - symmetry. destruct maxit as [|maxit']; [lia|]. exact AB.
Qed.

Lemma value_iteration_prints : forall g felicity val exo s n_x beta v0 lb ub interp_x interp_v call_v node_x node_v minimize tol maxit x0 r,
    value_iteration g felicity val exo s n_x beta v0 lb ub interp_x interp_v call_v node_x node_v minimize tol maxit x0 = Ok r ->
    exists ps,
      fst (vi_rows g felicity val exo s n_x beta v0 lb ub interp_x interp_v call_v node_x node_v minimize tol maxit
             0 100 100 0 0 (fun _ _ k => nth k x0 0) (fun _ _ _ => 0) None) = pass_rows 0 None None ps /\
      length ps = vi_iterations r /\ (vi_iterations r <= maxit)%nat /\
      (vi_v_err r, vi_x_err r) = last (map (fun p => (p_v p, p_x p)) ps) (100, 100) /\
      Forall (fun e => tol < fst e \/ 1 / 100000 < snd e) (removelast (map (fun p => (p_v p, p_x p)) ps)) /\
      ((vi_iterations r < maxit)%nat -> vi_v_err r <= tol /\ vi_x_err r <= 1 / 100000) /\
      Forall (fun p => 1 <= p_eval p <= 2000)%nat ps /\
      forall k, (k < vi_iterations r)%nat ->
        exists o c start e,
          value_iteration g felicity val exo s n_x beta v0 lb ub interp_x interp_v call_v node_x node_v minimize tol (S k) x0 = Ok o /\
          vi_v_err o = p_v (nth k ps (Pass 0 0 0)) /\ vi_x_err o = p_x (nth k ps (Pass 0 0 0)) /\
          (k = O -> c = fun _ _ j => nth j x0 0) /\
          ((0 < k)%nat -> exists o',
             value_iteration g felicity val exo s n_x beta v0 lb ub interp_x interp_v call_v node_x node_v minimize tol k x0 = Ok o' /\ vi_controls o' = c) /\
          evaluate_policy g val exo s n_x 1 interp_v (node_x c) (interp_x c) ep_tol ep_maxit start = Ok e /\
          ep_iterations e = p_eval (nth k ps (Pass 0 0 0)).
Proof.
  intros g felicity val exo s n_x beta v0 lb ub interp_x interp_v call_v node_x node_v minimize tol maxit x0 r H.
  unfold value_iteration in H.
  rewrite <- (vi_rows_loop g felicity val exo s n_x beta v0 lb ub interp_x interp_v call_v node_x node_v minimize tol maxit 0 100 100 0 0) in H.
  assert (K := vi_rows_run g felicity val exo s n_x beta v0 lb ub interp_x interp_v call_v node_x node_v minimize tol maxit 0 100 100 0 0
                 (fun _ _ k => nth k x0 0) (fun _ _ _ => 0) None).
  destruct (vi_rows _ _ _ _ _ _ _ _ _ _ _ _ _ _ _ _ tol maxit 0 100 100 0 0 _ _ _) as [rows o]. cbn [fst snd] in *.
  destruct o as [[[[lst it] ev] ex]|e]; [|discriminate H]. cbn [bind] in H.
  destruct lst as [[c v]|]; [|discriminate H]. injection H as <-.
  destruct K as (ps & -> & K1 & K2 & K3 & K4). destruct (K4 _ _ _ _ eq_refl) as (J1 & J2 & J3 & J4).
  exists ps. cbn [vi_iterations vi_v_err vi_x_err]. rewrite J1. cbn [plus].
  split; [apply pass_rows_first|]. split; [reflexivity|]. split; [exact K1|]. split; [exact J2|].
  split.
  - destruct ps as [|p ps]; [constructor|]. cbn [map] in *.
    change (removelast ((100, 100) :: (p_v p, p_x p) :: map (fun p => (p_v p, p_x p)) ps))
      with ((100, 100) :: removelast ((p_v p, p_x p) :: map (fun p => (p_v p, p_x p)) ps)) in K3.
    inversion K3; subst. unfold unfinished, vi_tol_x in *. exact H2.
  - split; [unfold vi_tol_x in J3; exact J3|]. split; [exact K2|].
    intros k Hk. destruct (J4 k Hk) as (c1 & v1 & c' & Q1 & Q2 & Q3 & start & e & Q4 & Q5).
    unfold value_iteration. rewrite Q1. cbn [bind]. do 4 eexists. split; [reflexivity|]. cbn [vi_v_err vi_x_err].
    split; [reflexivity|]. split; [reflexivity|]. split; [exact Q2|]. split; [|split; [exact Q4 | exact Q5]].
    intros Hk'. destruct (Q3 Hk') as (v' & e1 & e2 & Q6). rewrite Q6. cbn [bind]. eexists. split; reflexivity.
Qed.
