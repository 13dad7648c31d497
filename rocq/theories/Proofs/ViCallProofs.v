(** Proofs about the call of [value_iteration]. *)
From Coq Require Import String Reals List Arith Bool Lia Lra.
From Verif.Base Require Import Prelude Arrays Sums Norms Ext.
From Verif.Proofs Require Import ProcessProofs TimeIterationProofs ValueIterationProofs EvaluateCallProofs ViConvergence Howard.
From Verif.Spec Require Import Euler Bellman ValueIteration Convergence EvaluateCall.
From Verif.Model Require Import Grids Distributions Processes DecisionRule TimeIteration TimeIterationCall
  ImprovedTimeIteration ValueIteration EvaluateCall ViCall.
From Verif.Spec Require Import ViCall.
Import ListNotations.
Open Scope R_scope.

Lemma distance_ext : forall a b c x y x' y' e,
  (forall i n k, (i < a)%nat -> (n < b)%nat -> (k < c)%nat -> x i n k = x' i n k) ->
  (forall i n k, (i < a)%nat -> (n < b)%nat -> (k < c)%nat -> y i n k = y' i n k) ->
  distance_is a b c x y e -> distance_is a b c x' y' e.
Proof.
  intros a b c x y x' y' e Hx Hy (H1 & i & n & k & Hi & Hn & Hk & E). split.
  - intros i' n' k' Hi' Hn' Hk'. rewrite <- Hx, <- Hy by assumption. apply H1; assumption.
  - exists i, n, k. repeat (split; [assumption|]). rewrite <- Hx, <- Hy by assumption. exact E.
Qed.

Section Call.
  Variable spline : nat -> interp -> grid -> (nat -> nat -> R) -> list R -> list R.
  Variable spline_ms : nat -> interp -> grid -> grid -> tensor -> list R -> list R -> list R.
  Variable minimize : (list R -> R) -> list R -> list (R * R) -> list R.
  Notation call := (vi_call spline spline_ms minimize).

  (** A rule at the nodes of its grid, with [n] columns. *)
  Definition nodal (md : vi_model) (n : nat) (w : tensor) : tensor :=
    match fill_controls (ex_n (wm_process md)) (length (endo_nodes (wm_endo_grid md))) n
            (fun i => value_is (spline n) (spline_ms n) (new_rule md w) i (endo_nodes (wm_endo_grid md))) with
    | Ok t => t
    | Err _ => w
    end.

  Definition future (md : vi_model) (w : tensor) (j : nat) (S : list R) : R := value_at spline spline_ms (new_rule md w) j S.

  Definition tomorrow (md : vi_model) (n : nat) : tensor -> nat -> nat -> list R -> list R :=
    rule_ijs (spline n) (spline_ms n) Cubic (wm_exo_grid md) (wm_endo_grid md) (wm_process md).

  Hypothesis Hcol : keeps_columns spline.

  Section Pages.
    Variable md : vi_model.
    Hypothesis Hexo : by_pages (wm_exo_grid md).

    Lemma value_is_pages : forall n w i s, value_is (spline n) (spline_ms n) (new_rule md w) i s =
      Ok (P2 (map (spline n Cubic (wm_endo_grid md) (w (page (wm_exo_grid md) i))) s)).
    Proof. intros n w i s. destruct Hexo as [E|(p & E)]; unfold value_is, new_rule, page; cbn; rewrite E; reflexivity. Qed.

    Lemma nodal_ok : forall n w, fill_controls (ex_n (wm_process md)) (length (endo_nodes (wm_endo_grid md))) n
            (fun i => value_is (spline n) (spline_ms n) (new_rule md w) i (endo_nodes (wm_endo_grid md))) = Ok (nodal md n w).
    Proof.
      intros n w. unfold nodal.
      assert (E : exists t, fill_controls (ex_n (wm_process md)) (length (endo_nodes (wm_endo_grid md))) n
            (fun i => value_is (spline n) (spline_ms n) (new_rule md w) i (endo_nodes (wm_endo_grid md))) = Ok t).
      { unfold fill_controls. generalize (fun _ _ _ : nat => 0) as a0. generalize (ex_n (wm_process md)) as m.
        induction m as [|m IH]; intros a0; [eexists; reflexivity|]. cbn [for_range_res]. destruct (IH a0) as (b & ->). cbn [bind].
        rewrite value_is_pages. cbn [bind]. rewrite map_length, Nat.eqb_refl. cbn [andb].
        assert (F : forallb (fun r => Nat.eqb (length r) n)
                      (map (spline n Cubic (wm_endo_grid md) (w (page (wm_exo_grid md) m))) (endo_nodes (wm_endo_grid md))) = true).
        { apply forallb_forall. intros r Hr. apply in_map_iff in Hr. destruct Hr as (q & <- & _). rewrite Hcol. apply Nat.eqb_refl. }
        rewrite F. eexists. reflexivity. }
      destruct E as (t & ->). reflexivity.
    Qed.

    Lemma nodal_value : exact_on spline (wm_endo_grid md) -> forall n w i p k, (i < ex_n (wm_process md))%nat ->
      (p < length (endo_nodes (wm_endo_grid md)))%nat -> (k < n)%nat -> nodal md n w i p k = w (page (wm_exo_grid md) i) p k.
    Proof.
      intros He n w i p k Hi Hp Hk. assert (F := filled_ok _ _ _ _ _ (nodal_ok n w)). destruct (F i Hi) as (q & Eq & Hq).
      rewrite value_is_pages in Eq. injection Eq as <-. destruct Hq as (_ & _ & Hq). rewrite Hq by assumption.
      rewrite (nth_indep _ [] (spline n Cubic (wm_endo_grid md) (w (page (wm_exo_grid md) i)) [])) by (rewrite map_length; exact Hp).
      rewrite map_nth. apply He; assumption.
    Qed.

    Lemma future_value : forall w j S, future md w j S = hd 0 (spline 1 Cubic (wm_endo_grid md) (w (page (wm_exo_grid md) j)) S).
    Proof. intros w j S. unfold future, value_at. rewrite value_is_pages. reflexivity. Qed.

    Variables (g : list R -> list R -> list R -> list R -> list R) (u : list R -> list R -> list R -> R)
      (lb ub : list R -> list R -> list R) (beta c : R) (val : val_fun).
    Hypothesis Hmd : complete md g u lb ub beta c val.
    Notation d := (wm_process md).
    Notation s := (endo_nodes (wm_endo_grid md)).
    Notation n_x := (length (wm_x0 md)).

    Definition evaluation (start x : tensor) : res ep_result :=
      evaluate_policy g val d s n_x 1 (tomorrow md 1) (nodal md n_x x) (tomorrow md n_x x) ep_tol ep_maxit start.

    Lemma evaluate_call_pages : forall x dr0 w, (dr0 = None \/ dr0 = Some (new_rule md w)) ->
      evaluate_call (spline 1) (spline_ms 1) (evaluated md g) (rule_policy spline spline_ms md x) (evaluate_args dr0) =
      bind (evaluation (match dr0 with None => fun _ _ k => nth k [c] 0 | Some _ => nodal md 1 w end) x) (fun e =>
        Ok (EpAnswer (ValueRule (wm_exo_grid md) (wm_endo_grid md) None Cubic (ep_values e))
              (match dr0 with Some _ => true | None => false end) (Some (ep_iterations e, ep_tol, ep_err e)))).
    Proof.
      intros x dr0 w Hd. destruct Hmd as (_ & _ & _ & _ & _ & Ev0 & Eval). unfold evaluate_call. cbv zeta.
      cbn [evaluated vm_v0 vm_process vm_x0 vm_val vm_g evaluate_args ea_dr0 ea_maxit ea_tol ea_details]. rewrite Ev0, Eval.
      assert (Es : value_start (evaluated md g) (evaluate_args dr0) =
                   Ok (match dr0 with None => ValueRule (wm_exo_grid md) (wm_endo_grid md) None Cubic None | Some r => r end)).
      { unfold value_start. cbn [evaluate_args ea_dr0]. destruct dr0; [reflexivity|]. reflexivity. }
      rewrite Es. cbn [bind].
      assert (Ee : vr_endo (match dr0 with None => ValueRule (wm_exo_grid md) (wm_endo_grid md) None Cubic None | Some r => r end) = wm_endo_grid md)
        by (destruct Hd as [-> | ->]; reflexivity).
      assert (Ex : vr_exo (match dr0 with None => ValueRule (wm_exo_grid md) (wm_endo_grid md) None Cubic None | Some r => r end) = wm_exo_grid md)
        by (destruct Hd as [-> | ->]; reflexivity).
      assert (Ep : vr_process (match dr0 with None => ValueRule (wm_exo_grid md) (wm_endo_grid md) None Cubic None | Some r => r end) = None)
        by (destruct Hd as [-> | ->]; reflexivity).
      assert (Ei : vr_interp (match dr0 with None => ValueRule (wm_exo_grid md) (wm_endo_grid md) None Cubic None | Some r => r end) = Cubic)
        by (destruct Hd as [-> | ->]; reflexivity).
      rewrite Ee, Ex, Ep, Ei. unfold rule_policy. cbn [policy_controls policy_ijs]. rewrite nodal_ok. cbn [bind].
      assert (E0 : initial_values (spline 1) (spline_ms 1) d s [c] (evaluate_args dr0) =
                   Ok (match dr0 with None => fun _ _ k => nth k [c] 0 | Some _ => nodal md 1 w end)).
      { unfold initial_values. cbn [evaluate_args ea_dr0]. destruct Hd as [-> | ->]; [reflexivity|]. apply (nodal_ok 1 w). }
      rewrite E0. cbn [bind].
      destruct (Rlt_dec ep_tol 10) as [_|N]; [|exfalso; apply N; unfold ep_tol; lra].
      change (Nat.eqb ep_maxit 0) with false. cbn [orb].
      assert (F : first_pass Cubic (wm_exo_grid md) (wm_endo_grid md) d = None) by (destruct Hexo as [E|(p & E)]; rewrite E; reflexivity).
      rewrite F.
      assert (C : is_cartesian (wm_exo_grid md) = false) by (destruct Hexo as [E|(p & E)]; rewrite E; reflexivity).
      rewrite C. unfold evaluation, tomorrow. cbn [length].
      destruct (evaluate_policy _ _ _ _ _ _ _ _ _ _ _ _); reflexivity.
    Qed.

    Notation loop := (vi_loop g u val d s n_x beta c lb ub (tomorrow md n_x) (tomorrow md 1) (future md) (nodal md n_x) (nodal md 1) minimize).

    Lemma vic_loop_eq : forall tol fuel it ev ex x r w last, ((2 < S it)%nat -> r = new_rule md w) ->
      vic_loop spline spline_ms minimize md g u lb ub beta tol fuel it ev ex x r last = loop tol fuel it ev ex x w last.
    Proof.
      intros tol fuel. induction fuel as [|fuel IH]; intros it ev ex x r w last Hr; [reflexivity|].
      cbn [vic_loop vi_loop].
      destruct (orb (if Rlt_dec tol ev then true else false) (if Rlt_dec vi_tol_x ex then true else false)); [|reflexivity].
      assert (F : first_pass Cubic (wm_exo_grid md) (wm_endo_grid md) d = None) by (destruct Hexo as [E|(p & E)]; rewrite E; reflexivity).
      rewrite F. assert (Hmd' := Hmd). destruct Hmd' as (_ & _ & _ & _ & _ & Ev0 & Eval). rewrite Ev0. cbn [length].
      rewrite (evaluate_call_pages x (if Nat.ltb 2 (S it) then Some r else None) w)
        by (destruct (Nat.ltb_spec 2 (S it)) as [L|L]; [right; rewrite (Hr L); reflexivity | left; reflexivity]).
      replace (match (if Nat.ltb 2 (S it) then Some r else None) with None => fun _ _ k => nth k [c] 0 | Some _ => nodal md 1 w end)
        with (if Nat.ltb 2 (S it) then nodal md 1 w else fun _ _ k => nth k [c] 0) by (destruct (Nat.ltb 2 (S it)); reflexivity).
      unfold evaluation.
      destruct (evaluate_policy g val d s n_x 1 (tomorrow md 1) (nodal md n_x x) (tomorrow md n_x x) ep_tol ep_maxit
                  (if Nat.ltb 2 (S it) then nodal md 1 w else fun _ _ k => nth k [c] 0)) as [e|ee] eqn:Ee; cbn [bind]; [|reflexivity].
      assert (Ht : ep_tol < 10) by (unfold ep_tol; lra). assert (Hm : (0 < ep_maxit)%nat) by (apply Nat.ltb_lt; reflexivity).
      destruct (evaluate_policy_run _ _ _ _ _ _ _ _ _ _ _ _ _ Ht Hm Ee)
        as (q & _ & _ & Hv & _). rewrite Hv. cbn [an_rule].
      set (w' := iterate _ q _). clearbody w'.
      assert (E1 := nodal_ok 1 w'). unfold new_rule in E1. rewrite E1. cbn [bind]. fold (new_rule md w').
      destruct (Nat.eqb (ex_n d * length s * n_x) 0); [reflexivity|].
      apply (IH _ _ _ _ (new_rule md w') w'). reflexivity.
    Qed.

    Notation vi := (value_iteration g u val d s n_x beta c lb ub (tomorrow md n_x) (tomorrow md 1) (future md) (nodal md n_x) (nodal md 1) minimize).

    Definition report (a : vi_args) (r : vi_result) : vi_answer :=
      ViAnswer (new_rule md (vi_controls r)) (new_rule md (fun i n _ => vi_values r i n))
        (if wa_details a
         then Some (ViDetails (vi_iterations r) d (vi_x_converged r) vi_tol_x (vi_x_err r) (vi_v_converged r) vi_tol_v (vi_v_err r))
         else None).

    (** The call is the algorithm of ValueIteration.v. *)
    Theorem vi_call_eq : forall a, call md a = bind (vi (wa_tol a) (wa_maxit a) (wm_x0 md)) (fun r => Ok (report a r)).
    Proof.
      intros a. unfold vi_call. assert (Hmd' := Hmd). destruct Hmd' as (-> & -> & -> & -> & -> & _).
      rewrite (vic_loop_eq _ _ _ _ _ _ _ (fun _ _ _ => 0)) by (intros; lia). unfold value_iteration.
      destruct (vi_loop _ _ _ _ _ _ _ _ _ _ _ _ _ _ _ _ _ _ _ _ _ _ _ _) as [[[[last it] ev] ex]|e]; cbn [bind]; [|reflexivity].
      destruct last as [[cc vv]|]; reflexivity.
    Qed.
  End Pages.

  Lemma discretized_pages : forall md, discretized md -> by_pages (wm_exo_grid md).
  Proof. intros md [(c & E & _)|(q & dim & E & _)]; [right; eexists; exact E|left; exact E]. Qed.

  Lemma discretized_page : forall md, discretized md -> forall i, (i < ex_n (wm_process md))%nat -> page (wm_exo_grid md) i = i.
  Proof.
    intros md [(c & E & _)|(q & dim & E & Ep)] i Hi; rewrite E; [reflexivity|].
    rewrite Ep in Hi. cbn in Hi. unfold page. lia.
  Qed.

  Lemma objective_total : forall md g u beta w i p x, by_pages (wm_exo_grid md) ->
    choice_total g u (wm_process md) beta (future md w) i p x = objective spline md g u beta w i p x.
  Proof.
    intros md g u beta w i p x Hp. rewrite choice_total_value. unfold objective. cbv zeta. f_equal. f_equal. apply rsum_ext.
    intros j _. rewrite (future_value md Hp). reflexivity.
  Qed.

  Theorem vi_call_run : forall md g u lb ub beta c val a ans,
    discretized md -> exact_on spline (wm_endo_grid md) -> complete md g u lb ub beta c val ->
    call md a = Ok ans ->
    let d := wm_process md in let s := endo_nodes (wm_endo_grid md) in let n_x := length (wm_x0 md) in
    let box := fun i n => combine (lb (ex_node d i) (nth n s [])) (ub (ex_node d i) (nth n s [])) in
    exists x v it xe ve,
      va_dr ans = on_grids md x /\ va_drv ans = on_grids md (fun i n _ => v i n) /\
      (1 <= it <= wa_maxit a)%nat /\ ((it < wa_maxit a)%nat -> ve <= wa_tol a /\ xe <= 1 / 100000) /\
      (if wa_details a
       then exists dt, va_details ans = Some dt /\ vd_iterations dt = it /\ vd_process dt = d /\ vd_x_err dt = xe /\ vd_v_err dt = ve /\
              vd_x_tol dt = 1 / 100000 /\ vd_v_tol dt = 1 / 10000000 /\
              (vd_x_converged dt = true <-> xe < 1 / 100000) /\ (vd_v_converged dt = true <-> ve < 1 / 10000000)
       else va_details ans = None) /\
      exists x0 w,
        distance_is (ex_n d) (length s) n_x x x0 xe /\
        distance_is (ex_n d) (length s) 1 (fun i n _ => v i n) w ve /\
        (exists vs q e, w = vs q /\
           successive g val d s n_x 1 (fun w i j S => spline 1%nat Cubic (wm_endo_grid md) (w (page (wm_exo_grid md) j)) S) x0
             (fun i j S => spline n_x Cubic (wm_endo_grid md) (x0 (page (wm_exo_grid md) j)) S) vs /\
           distance_is (ex_n d) (length s) 1 (vs (S q)) w e /\ (q < 2000)%nat /\ ((S q < 2000)%nat -> e <= 1 / 100000000)) /\
        (forall i n, (i < ex_n d)%nat -> (n < length s)%nat -> v i n = objective spline md g u beta w i (nth n s []) (at_node n_x x i n)) /\
        ((forall i n, (i < ex_n d)%nat -> (n < length s)%nat ->
            finds_minimum minimize (fun y => - objective spline md g u beta w i (nth n s []) y) (box i n) /\
            length (lb (ex_node d i) (nth n s [])) = n_x /\ length (ub (ex_node d i) (nth n s [])) = n_x) ->
         forall i n, (i < ex_n d)%nat -> (n < length s)%nat ->
           in_box (box i n) (at_node n_x x i n) /\
           forall y, in_box (box i n) y -> objective spline md g u beta w i (nth n s []) y <= v i n).
  Proof.
    intros md g u lb ub beta c val a ans Hd He Hmd H d s n_x box. assert (Hp := discretized_pages md Hd).
    rewrite (vi_call_eq md Hp g u lb ub beta c val Hmd a) in H.
    match type of H with bind ?L _ = _ => destruct L as [r|e0] eqn:Er end; [|discriminate]. cbn [bind] in H. injection H as <-.
    destruct (value_iteration_run _ _ _ _ _ _ _ _ _ _ _ _ _ _ _ _ _ _ _ _ Er) as (x0 & w & Hpass & Hit & Hend & Hfx & Hfv).
    destruct Hpass as ((start & e & Ee & Ew) & Hx & Hv & Hs & Hxe & Hve). fold d s n_x in Ee, Hx, Hv, Hs, Hxe, Hve.
    assert (Hs1 : (0 < ex_n d * length s * 1)%nat) by nia.
    assert (HV : forall i n, (i < ex_n d)%nat -> (n < length s)%nat ->
      vi_values r i n = objective spline md g u beta w i (nth n s []) (at_node n_x (vi_controls r) i n)).
    { intros i n Hi Hn. rewrite Hv. apply objective_total. exact Hp. }
    exists (vi_controls r), (vi_values r), (vi_iterations r), (vi_x_err r), (vi_v_err r).
    split; [reflexivity|]. split; [reflexivity|]. split; [exact Hit|]. split; [exact Hend|]. split.
    { cbn. destruct (wa_details a); [|reflexivity]. eexists. repeat split; try reflexivity; cbn; try apply Hfx; try apply Hfv. }
    exists x0, w. split; [rewrite Hxe; apply tnorm_distance; exact Hs|]. split.
    { pose proof (tnorm_distance _ _ _ (fun i n _ => vi_values r i n) (nodal md 1 w) Hs1) as D.
      cbv beta in D. rewrite <- Hve in D. eapply distance_ext; [| |exact D]; intros i n k Hi Hn Hk; [reflexivity|].
      unfold d, s in *. rewrite (nodal_value md Hp He) by assumption. rewrite (discretized_page md Hd i Hi). reflexivity. }
    split.
    { assert (Ht : ep_tol < 10) by (unfold ep_tol; lra). assert (Hm : (0 < ep_maxit)%nat) by (apply Nat.ltb_lt; reflexivity).
      destruct (evaluate_policy_run _ _ _ _ _ _ _ _ _ _ _ _ _ Ht Hm Ee) as (q & Hq & Hqi & Hqv & Hqd & _ & Hqe).
      rewrite Ew in Hqv. injection Hqv as Hqv. rewrite Hqv.
      exists (fun t => iterate (fun v => update_value g val d s n_x 1 (nodal md n_x x0) v (tomorrow md n_x x0) (tomorrow md 1 v)) t start), q, (ep_err e).
      split; [reflexivity|]. split; [|split; [exact Hqd|split; [exact Hq|exact Hqe]]].
      intros t i n k Hi Hn Hk. rewrite iterate_S. rewrite update_value_value by assumption.
      assert (Ex : at_node n_x (nodal md n_x x0) i n = at_node n_x x0 i n).
      { unfold at_node. apply map_ext_in. intros q0 Hq0. apply in_seq in Hq0.
        rewrite (nodal_value md Hp He) by (unfold d, s in *; try assumption; lia). rewrite (discretized_page md Hd i Hi). reflexivity. }
      rewrite Ex. unfold tomorrow, rule_ijs, page. fold d.
      destruct Hp as [E|(p & E)]; rewrite E; reflexivity. }
    split; [exact HV|].
    intros Hmin i n Hi Hn. destruct (Hmin i n Hi Hn) as (Hf & Hl & Hu).
    set (obj := fun xx => - choice_total g u d beta (future md w) i (nth n s []) xx).
    destruct (Hf obj (at_node n_x x0 i n)) as [Hin Hle]; [intros y; unfold obj; rewrite (objective_total md g u beta w i _ y Hp); reflexivity|].
    assert (E : at_node n_x (vi_controls r) i n = minimize obj (at_node n_x x0 i n) (box i n)).
    { rewrite Hx. etransitivity; [|apply map_nth_seq].
      replace (length (minimize obj (at_node n_x x0 i n) (box i n))) with n_x; [reflexivity|].
      clear - Hin Hl Hu. unfold in_box in Hin. apply Forall2_len in Hin. rewrite <- Hin. unfold box. rewrite combine_length, Hl, Hu. symmetry. apply Nat.min_id. }
    split; [rewrite E; exact Hin|]. intros y Hy. rewrite (HV i n Hi Hn), E. specialize (Hle y Hy). lra.
  Qed.

  Section Close.
    Variables (md : vi_model) (g : list R -> list R -> list R -> list R -> list R) (u : list R -> list R -> list R -> R)
      (lb ub : list R -> list R -> list R) (beta c : R) (val : val_fun) (W : tensor -> list R -> list R -> R).
    Notation d := (wm_process md).
    Notation s := (endo_nodes (wm_endo_grid md)).
    Notation n_x := (length (wm_x0 md)).
    Hypothesis Hd : discretized md.
    Hypothesis He : exact_on spline (wm_endo_grid md).
    Hypothesis Hmd : complete md g u lb ub beta c val.
    Hypothesis HW : index_is_point d (value_next spline md) W.
    Hypothesis Hprob : forall i, (i < ex_n d)%nat -> probability (dp_n (ex_dp d) i) (dp_weight (ex_dp d) i).
    Hypothesis Hmax : maximises g u beta d s W lb ub minimize.
    Hypothesis Hlen : forall i n, (i < ex_n d)%nat -> (n < length s)%nat ->
      length (lb (ex_node d i) (nth n s [])) = n_x /\ length (ub (ex_node d i) (nth n s [])) = n_x.

    Lemma index_future : index_is_point d (future md) W.
    Proof. intros w i j S Hi Hj. rewrite (future_value md (discretized_pages md Hd)). apply (HW w i j S Hi Hj). Qed.

    Lemma node_same : forall n w i p k, (i < ex_n d)%nat -> (p < length s)%nat -> (k < n)%nat -> nodal md n w i p k = w i p k.
    Proof.
      intros n w i p k Hi Hp Hk. rewrite (nodal_value md (discretized_pages md Hd) He) by assumption.
      rewrite (discretized_page md Hd i Hi). reflexivity.
    Qed.

    Theorem vi_call_close : forall K, 0 <= beta -> beta * K < 1 -> value_rule_lipschitz d (length s) W K ->
      forall a ans dt, call md a = Ok ans -> va_details ans = Some dt ->
      exists x v, va_dr ans = on_grids md x /\ va_drv ans = on_grids md v /\
        (forall vs, bellman_solution g u beta d s W lb ub vs -> forall i n, (i < ex_n d)%nat -> (n < length s)%nat ->
           Rabs (v i n 0%nat - vs i n 0%nat) <= beta * K * vd_v_err dt / (1 - beta * K)) /\
        (forall vs vc, bellman_solution g u beta d s W lb ub vs -> value_of_controls g u beta d s n_x W x vc ->
           forall i n, (i < ex_n d)%nat -> (n < length s)%nat ->
           Rabs (vc i n 0%nat - vs i n 0%nat) <= 2 * (beta * K * vd_v_err dt / (1 - beta * K))).
    Proof.
      intros K Hb HK HL a ans dt H Hdt. assert (Hp := discretized_pages md Hd).
      rewrite (vi_call_eq md Hp g u lb ub beta c val Hmd a) in H.
      match type of H with bind ?L _ = _ => destruct L as [r|e0] eqn:Er end; [|discriminate]. cbn [bind] in H. injection H as <-.
      cbn in Hdt. destruct (wa_details a); [|discriminate]. injection Hdt as <-. cbn [vd_v_err].
      exists (vi_controls r), (fun i n _ => vi_values r i n). split; [reflexivity|]. split; [reflexivity|].
      assert (Hn : forall w i n, (i < ex_n d)%nat -> (n < length s)%nat -> nodal md 1 w i n 0%nat = w i n 0%nat)
        by (intros; apply node_same; try assumption; lia).
      split.
      - intros vs Hvs i n Hi Hn'. cbv beta.
        apply (proj1 (vi_optimal _ _ _ _ _ _ _ _ _ _ _ _ _ _ _ _ W K index_future Hb HK HL Hprob Hn Hmax Hlen _ _ _ _ Er i n Hi Hn') vs Hvs).
      - intros vs vc Hvs Hvc i n Hi Hn'.
        exact (vi_policy _ _ _ _ _ _ _ _ _ _ _ _ _ _ _ _ W K index_future Hb HK HL Hprob Hn Hmax Hlen _ _ _ _ Er vs vc Hvs Hvc i n Hi Hn').
    Qed.

    Theorem vi_call_reaches :
      (forall m p x v M S X V, val m p x v M S X V 0%nat = u m p x + beta * nth 0 V 0) ->
      value_rule_averages d (length s) W -> 0 <= beta < 1 ->
      forall B V,
      (forall i n y, (i < ex_n d)%nat -> (n < length s)%nat ->
         in_box (combine (lb (ex_node d i) (nth n s [])) (ub (ex_node d i) (nth n s []))) y \/ y = wm_x0 md ->
         Rabs (u (ex_node d i) (nth n s []) y) <= B) ->
      B <= (1 - beta) * V -> Rabs c <= V -> beta ^ 1999 * (2 * V) <= 1 / 100000000 ->
      (0 < ex_n d * length s * n_x)%nat ->
      forall vs, bellman_solution g u beta d s W lb ub vs ->
      forall a, (0 < wa_maxit a)%nat -> wa_details a = true ->
      exists ans v dt, call md a = Ok ans /\ va_drv ans = on_grids md v /\ va_details ans = Some dt /\
        let gap := beta ^ (vd_iterations dt - 2) * (2 * V) + 1 / 100000000 * (1 + beta) / (1 - beta) / (1 - beta) in
        (forall i n, (i < ex_n d)%nat -> (n < length s)%nat -> Rabs (v i n 0%nat - vs i n 0%nat) <= beta * gap) /\
        vd_v_err dt <= (1 + beta) * gap.
    Proof.
      intros Hval Havg Hb B V HB HBV Hc Hpow Hs vs Hvs a Hm Hdt. assert (Hp := discretized_pages md Hd).
      assert (Hsame : forall i, (i < ex_n d)%nat -> dp_n (ex_dp d) i = dp_n (ex_dp d) 0)
        by (intros i _; destruct Hd as [(cc & _ & E)|(q & dim & _ & E)]; rewrite E; reflexivity).
      destruct (howard g u val d s n_x beta c lb ub (tomorrow md n_x) (tomorrow md 1) (future md) (nodal md n_x) (nodal md 1) minimize W)
        with (x0 := wm_x0 md) (B := B) (V := V) (vs := vs) (tol := wa_tol a) (maxit := wa_maxit a) as (r & Er & Hgap & Herr);
        try assumption; try reflexivity.
      - exact index_future.
      - intros w i j S Hi Hj. rewrite <- (HW w i j S Hi Hj). unfold tomorrow, rule_ijs, value_next, page.
        destruct Hp as [E|(p & E)]; rewrite E; destruct (spline _ _ _ _ _); reflexivity.
      - intros x i n k Hi Hn Hk. apply node_same; assumption.
      - intros w i n Hi Hn. apply node_same; try assumption; lia.
      - exists (report md a r), (fun i n _ => vi_values r i n).
        exists (ViDetails (vi_iterations r) d (vi_x_converged r) vi_tol_x (vi_x_err r) (vi_v_converged r) vi_tol_v (vi_v_err r)).
        rewrite (vi_call_eq md Hp g u lb ub beta c val Hmd a), Er. cbn [bind]. split; [reflexivity|]. split; [reflexivity|].
        split; [unfold report; cbn; rewrite Hdt; reflexivity|]. split; [exact Hgap|exact Herr].
    Qed.
  End Close.

  (** ** Errors *)

  Lemma loop_enters : forall md g u lb ub beta a, (0 < wa_maxit a)%nat -> exists fuel, wa_maxit a = S fuel /\
    forall x r last, vic_loop spline spline_ms minimize md g u lb ub beta (wa_tol a) (wa_maxit a) 0 100 100 x r last =
      match first_pass Cubic (wm_exo_grid md) (wm_endo_grid md) (wm_process md) with
      | Some e => Err e
      | None =>
          let n_v := match wm_v0 md with Some v0 => length v0 | None => 0%nat end in
          bind (evaluate_call (spline n_v) (spline_ms n_v) (evaluated md g) (rule_policy spline spline_ms md x) (evaluate_args None)) (fun ev =>
            match wm_v0 md with
            | Some [_] =>
                bind (fill_controls (ex_n (wm_process md)) (length (endo_nodes (wm_endo_grid md))) 1
                        (fun i => value_is (spline 1) (spline_ms 1) (an_rule ev) i (endo_nodes (wm_endo_grid md)))) (fun values_0 =>
                let controls : tensor := fun i n k =>
                  let m := ex_node (wm_process md) i in
                  nth k (minimize (fun xx => - choice_total g u (wm_process md) beta (value_at spline spline_ms (an_rule ev)) i (nth n (endo_nodes (wm_endo_grid md)) []) xx)
                           (at_node (length (wm_x0 md)) x i n)
                           (combine (lb m (nth n (endo_nodes (wm_endo_grid md)) [])) (ub m (nth n (endo_nodes (wm_endo_grid md)) [])))) 0 in
                let values := fun i n => choice_total g u (wm_process md) beta (value_at spline spline_ms (an_rule ev)) i
                  (nth n (endo_nodes (wm_endo_grid md)) []) (at_node (length (wm_x0 md)) controls i n) in
                if Nat.eqb (ex_n (wm_process md) * length (endo_nodes (wm_endo_grid md)) * length (wm_x0 md)) 0 then Err ExcValue else
                vic_loop spline spline_ms minimize md g u lb ub beta (wa_tol a) fuel 1
                  (tnorm (ex_n (wm_process md)) (length (endo_nodes (wm_endo_grid md))) 1 (fun i n k => values i n - values_0 i n k))
                  (tnorm (ex_n (wm_process md)) (length (endo_nodes (wm_endo_grid md))) (length (wm_x0 md)) (fun i n k => controls i n k - x i n k))
                  controls (an_rule ev) (Some (controls, values)))
            | _ => Err ExcValue
            end)
      end.
  Proof.
    intros md g u lb ub beta a Hm. destruct (wa_maxit a) as [|fuel]; [lia|]. exists fuel. split; [reflexivity|]. intros x r last.
    cbn [vic_loop]. destruct (Rlt_dec vi_tol_x 100) as [_|N]; [|exfalso; apply N; unfold vi_tol_x; lra].
    rewrite orb_true_r. reflexivity.
  Qed.

  Lemma vi_call_needs : forall md a ans, call md a = Ok ans ->
    exists g u lb ub beta c val, complete md g u lb ub beta c val /\ (0 < wa_maxit a)%nat /\ is_cartesian (wm_exo_grid md) = false.
  Proof.
    clear Hcol. intros md a ans H. unfold vi_call in H.
    destruct (wm_transition md) as [g|] eqn:E1; [|discriminate]. destruct (wm_felicity md) as [u|] eqn:E2; [|discriminate].
    destruct (wm_lb md) as [lb|] eqn:E3; [|discriminate]. destruct (wm_ub md) as [ub|] eqn:E4; [|discriminate].
    destruct (wm_beta md) as [beta|] eqn:E5; [|discriminate].
    destruct (Nat.eq_dec (wa_maxit a) 0) as [Z|Z]; [rewrite Z in H; cbn in H; discriminate|].
    assert (Hm : (0 < wa_maxit a)%nat) by lia.
    destruct (loop_enters md g u lb ub beta a Hm) as (fuel & _ & L). rewrite L in H. clear L.
    destruct (first_pass _ _ _ _); [discriminate|]. cbv zeta in H.
    match type of H with bind (bind ?L _) _ = _ => destruct L as [ev|] eqn:Ev end; cbn [bind] in H; [|discriminate].
    destruct (wm_v0 md) as [[|c [|? ?]]|] eqn:E6; try discriminate.
    assert (Hpass : passes (evaluate_args None)) by (split; [apply Nat.ltb_lt; reflexivity|unfold evaluate_args, ep_tol; cbn; lra]).
    destruct (wm_value md) as [val|] eqn:E7.
    - exists g, u, lb, ub, beta, c, val. split; [repeat split; assumption|]. split; [exact Hm|].
      destruct (is_cartesian (wm_exo_grid md)) eqn:C; [|reflexivity]. exfalso.
      exact (call_cartesian _ _ (evaluated md g) _ _ _ Hpass eq_refl C Ev).
    - exfalso. unfold evaluate_call in Ev. cbn [evaluated vm_v0 vm_val] in Ev. rewrite E6, E7 in Ev.
      destruct (value_start _ _); cbn [bind] in Ev; [|discriminate]. destruct (policy_controls _ _ _ _); cbn [bind] in Ev; [|discriminate].
      destruct (initial_values _ _ _ _ _ _); cbn [bind] in Ev; discriminate.
  Qed.

  Lemma vi_call_missing : forall md a,
    (wm_transition md = None \/ wm_felicity md = None \/ wm_lb md = None \/ wm_ub md = None \/ wm_beta md = None) \/
    (discretized md /\ (0 < wa_maxit a)%nat /\ (wm_v0 md = None \/ wm_value md = None)) ->
    call md a = Err ExcKey.
  Proof.
    intros md a H. unfold vi_call.
    destruct (wm_transition md) as [g|] eqn:E1; [|reflexivity]. destruct (wm_felicity md) as [u|] eqn:E2; [|reflexivity].
    destruct (wm_lb md) as [lb|] eqn:E3; [|reflexivity]. destruct (wm_ub md) as [ub|] eqn:E4; [|reflexivity].
    destruct (wm_beta md) as [beta|] eqn:E5; [|reflexivity].
    destruct H as [[?|[?|[?|[?|?]]]]|(Hd & Hm & H)]; try discriminate. assert (Hp := discretized_pages md Hd).
    destruct (loop_enters md g u lb ub beta a Hm) as (fuel & _ & L). rewrite L. clear L.
    assert (F : first_pass Cubic (wm_exo_grid md) (wm_endo_grid md) (wm_process md) = None) by (destruct Hp as [E|(p & E)]; rewrite E; reflexivity).
    rewrite F. cbv zeta. unfold evaluate_call. cbn [evaluated vm_v0 vm_val vm_process vm_x0].
    destruct (wm_v0 md) as [v0|]; [|reflexivity]. destruct H as [H|H]; [discriminate|]. rewrite H.
    unfold value_start. cbn [evaluate_args ea_dr0 ea_interp]. cbn [bind interp_method].
    unfold rule_policy. change (interp_method "cubic") with (Ok Cubic). cbn [bind policy_controls vr_endo].
    cbn [evaluated vm_endo_grid]. rewrite nodal_ok by exact Hp. cbn [bind]. reflexivity.
  Qed.

  Lemma vi_call_no_pass : forall md g u lb ub beta c val a, complete md g u lb ub beta c val -> wa_maxit a = 0%nat -> call md a = Err ExcName.
  Proof. intros md g u lb ub beta c val a (E1 & E2 & E3 & E4 & E5 & _) Hz. unfold vi_call. rewrite E1, E2, E3, E4, E5, Hz. reflexivity. Qed.

  Lemma vi_call_unread : forall md a verbose howard,
    call md (ViArgs verbose (wa_details a) (wa_tol a) (wa_maxit a) howard) = call md a.
  Proof. reflexivity. Qed.

  Lemma vi_call_details : forall md a ans, call md a = Ok ans ->
    exists ans', call md (ViArgs (wa_verbose a) (negb (wa_details a)) (wa_tol a) (wa_maxit a) (wa_howard a)) = Ok ans' /\
      va_dr ans' = va_dr ans /\ va_drv ans' = va_drv ans /\
      (wa_details a = true -> va_details ans' = None) /\ (wa_details a = false -> va_details ans = None /\ va_details ans' <> None).
  Proof.
    intros md a ans H. unfold vi_call in *. cbn [wa_tol wa_maxit wa_details].
    destruct (wm_transition md) as [g|]; [|discriminate]. destruct (wm_felicity md) as [u|]; [|discriminate].
    destruct (wm_lb md) as [lb|]; [|discriminate]. destruct (wm_ub md) as [ub|]; [|discriminate].
    destruct (wm_beta md) as [beta|]; [|discriminate].
    destruct (vic_loop _ _ _ _ _ _ _ _ _ _ _ _ _ _ _ _ _) as [[[[last it] ev] ex]|e]; cbn [bind] in *; [|discriminate].
    destruct last as [[x v]|]; [|discriminate]. injection H as <-. eexists. split; [reflexivity|].
    destruct (wa_details a); cbn; repeat split; try reflexivity; discriminate.
  Qed.
End Call.

(** ** Two states 0 and 1, linear interpolation, felicity x (1 + s), x in [0, 1], beta = 1/2; one exogenous state. *)

Definition between (t : R) : R := Rmax 0 (Rmin 1 t).
Definition two_spline (n : nat) (k : interp) (e : grid) (v : nat -> nat -> R) (S : list R) : list R :=
  map (fun q => (1 - between (hd 0 S)) * v 0%nat q + between (hd 0 S) * v 1%nat q) (seq 0 n).
Definition two_chain : mat * mat := (Mat 1 1 (fun _ _ => 0), Mat 1 1 (fun _ _ => 1)).
Definition two_grid : grid := GUniform {| u_min := [0]; u_max := [1]; u_n := [2%nat]; u_nodes := Mat 2 1 (fun i _ => INR i) |}.
Definition two_u (m s x : list R) : R := hd 0 x * (1 + hd 0 s).
Definition two_val : val_fun := fun m s x v M S X V k => two_u m s x + 1 / 2 * nth 0 V 0.
Definition two_model : vi_model :=
  ViModel (GUnstructured (fst two_chain)) two_grid (mc_exo two_chain) [0] (Some [0]) (Some (1 / 2))
    (Some (fun _ s _ _ => s)) (Some two_u) (Some (fun _ _ => [0])) (Some (fun _ _ => [1])) (Some two_val).
Definition two_W (w : tensor) (m S : list R) : R := hd 0 (two_spline 1 Cubic two_grid (w 0%nat) S).
Definition two_solution : tensor := fun _ n _ => 2 * (1 + INR n).

Lemma between_range : forall t, 0 <= between t <= 1.
Proof. intros t. unfold between, Rmax, Rmin. destruct (Rle_dec 1 t), (Rle_dec 0 _); lra. Qed.

Lemma between_id : forall t, 0 <= t <= 1 -> between t = t.
Proof. intros t H. unfold between, Rmax, Rmin. destruct (Rle_dec 1 t), (Rle_dec 0 _); lra. Qed.

Lemma two_columns : keeps_columns two_spline.
Proof. intros n k e v S. unfold two_spline. rewrite map_length, seq_length. reflexivity. Qed.

Lemma two_cases : forall p, (p < length (endo_nodes two_grid))%nat -> p = 0%nat \/ p = 1%nat.
Proof. intros p H. cbn in H. lia. Qed.

Lemma two_exact : exact_on two_spline two_grid.
Proof.
  intros n v p k Hp Hk. unfold two_spline. rewrite TimeIterationProofs.nth_map_seq by exact Hk. destruct (two_cases p Hp) as [-> | ->]; cbn; rewrite between_id by lra; lra.
Qed.

Lemma two_discretized : discretized two_model.
Proof. left. exists two_chain. split; reflexivity. Qed.

Lemma two_complete : complete two_model (fun _ s _ _ => s) two_u (fun _ _ => [0]) (fun _ _ => [1]) (1 / 2) 0 two_val.
Proof. repeat split. Qed.

Lemma two_index : index_is_point (wm_process two_model) (value_next two_spline two_model) two_W.
Proof. intros w i j S Hi Hj. cbn in Hj. assert (j = 0%nat) as -> by lia. reflexivity. Qed.

Lemma two_W_eq : forall w m S, two_W w m S = (1 - between (hd 0 S)) * w 0%nat 0%nat 0%nat + between (hd 0 S) * w 0%nat 1%nat 0%nat.
Proof. reflexivity. Qed.

Lemma two_lipschitz : value_rule_lipschitz (wm_process two_model) 2 two_W 1.
Proof.
  intros w w' e He H i j S Hi Hj. rewrite !two_W_eq. pose proof (between_range (hd 0 S)) as B. set (t := between (hd 0 S)) in *. clearbody t.
  assert (A := H 0%nat 0%nat 0%nat ltac:(cbn; lia) ltac:(lia) ltac:(lia)). assert (A' := H 0%nat 1%nat 0%nat ltac:(cbn; lia) ltac:(lia) ltac:(lia)).
  apply Rabs_le.
  assert (Q : forall z e0, Rabs z <= e0 -> - e0 <= z <= e0) by (intros z e0 Hz; unfold Rabs in Hz; destruct (Rcase_abs z); lra).
  apply Q in A. apply Q in A'. nra.
Qed.

Lemma two_averages : value_rule_averages (wm_process two_model) 2 two_W.
Proof.
  intros i j S Hi Hj. split; [|rewrite two_W_eq; lra]. intros w w' c H. rewrite !two_W_eq.
  pose proof (between_range (hd 0 S)) as B. set (t := between (hd 0 S)) in *. clearbody t.
  assert (A := H 0%nat 0%nat ltac:(cbn; lia) ltac:(lia)). assert (A' := H 0%nat 1%nat ltac:(cbn; lia) ltac:(lia)). nra.
Qed.

Lemma two_probability : forall i, (i < ex_n (wm_process two_model))%nat ->
  probability (dp_n (ex_dp (wm_process two_model)) i) (dp_weight (ex_dp (wm_process two_model)) i).
Proof. intros i Hi. split; [intros j Hj; cbn; lra|cbn; lra]. Qed.

Lemma two_maximises : maximises (fun _ s _ _ => s) two_u (1 / 2) (wm_process two_model) (endo_nodes two_grid) two_W (fun _ _ => [0]) (fun _ _ => [1]) top.
Proof.
  intros w i n Hi Hn. cbv zeta. intros f x Hf. unfold in_box, top. cbn [combine map snd]. split.
  - constructor; [|constructor]. cbn. lra.
  - intros y Hy. inversion Hy as [|? y0 ? l Hy0 Hl]; subst. cbn in Hy0. inversion Hl; subst. unfold bellman, two_u.
    destruct (two_cases n Hn) as [-> | ->]; cbn; lra.
Qed.

Lemma two_bellman : bellman_solution (fun _ s _ _ => s) two_u (1 / 2) (wm_process two_model) (endo_nodes two_grid) two_W
  (fun _ _ => [0]) (fun _ _ => [1]) two_solution.
Proof.
  intros i n Hi Hn box J. subst box J. unfold objective_at, bellman, in_box, two_u. cbn [combine].
  destruct (two_cases n Hn) as [-> | ->]; cbn; rewrite between_id by lra; unfold two_solution; cbn; split.
  - exists [1]. split; [constructor; [cbn; lra|constructor]|cbn; lra].
  - intros y Hy. inversion Hy as [|? y0 ? l Hy0 Hl]; subst. cbn in Hy0 |- *. lra.
  - exists [1]. split; [constructor; [cbn; lra|constructor]|cbn; lra].
  - intros y Hy. inversion Hy as [|? y0 ? l Hy0 Hl]; subst. cbn in Hy0 |- *. lra.
Qed.

Lemma two_lengths : forall i n : nat, length [0%R] = length (wm_x0 two_model) /\ length [1%R] = length (wm_x0 two_model).
Proof. split; reflexivity. Qed.

Lemma two_reaches : forall spline_ms a, (0 < wa_maxit a)%nat -> wa_details a = true ->
  exists ans v dt, vi_call two_spline spline_ms top two_model a = Ok ans /\ va_drv ans = on_grids two_model v /\ va_details ans = Some dt /\
    forall n, (n < 2)%nat -> Rabs (v 0%nat n 0%nat - 2 * (1 + INR n)) <= 1 / 2 * ((1 / 2) ^ (vd_iterations dt - 2) * 8 + 6 / 100000000).
Proof.
  intros spline_ms a Hm Hd.
  destruct (vi_call_reaches two_spline spline_ms top two_columns two_model (fun _ s _ _ => s) two_u (fun _ _ => [0]) (fun _ _ => [1]) (1 / 2) 0 two_val
    two_W two_discretized two_exact two_complete two_index two_probability two_maximises (fun i n _ _ => two_lengths i n)) with (B := 2) (V := 4) (vs := two_solution) (a := a)
    as (ans & v & dt & H & Hv & Hdt & Hg & _); try assumption.
  - intros. reflexivity.
  - exact two_averages.
  - lra.
  - intros i n y Hi Hn [Hy| ->].
    + unfold in_box in Hy. cbn [combine] in Hy. inversion Hy as [|? y0 ? l Hy0 Hl]; subst. cbn in Hy0. unfold two_u.
      destruct (two_cases n Hn) as [-> | ->]; cbn; apply Rabs_le; lra.
    + unfold two_u. cbn. rewrite Rmult_0_l, Rabs_R0. lra.
  - lra.
  - rewrite Rabs_R0. lra.
  - change 1999%nat with (40 + 1959)%nat. rewrite pow_add. set (p := (1 / 2) ^ 1959).
    assert (0 <= p <= 1) by (unfold p; split; [apply pow_le; lra|rewrite <- (pow1 1959); apply pow_incr; lra]). cbn [pow]. lra.
  - cbn. lia.
  - exact two_bellman.
  - exists ans, v, dt. split; [exact H|]. split; [exact Hv|]. split; [exact Hdt|]. intros n Hn.
    specialize (Hg 0%nat n ltac:(cbn; lia) ltac:(cbn; lia)). unfold two_solution in Hg. lra.
Qed.
