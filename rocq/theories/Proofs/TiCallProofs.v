From Coq Require Import String Reals List Arith Lia Lra Bool FunctionalExtensionality.
From Verif.Base Require Import Prelude Arrays Norms Ext.
From Verif.Spec Require Import Product Euler TimeIteration TiCall.
From Verif.Model Require Import Discretization Grids Processes DecisionRule Newton NumDiff TimeIteration TimeIterationCall.
From Verif.Proofs Require Import TimeIterationProofs.
Import ListNotations.
Open Scope R_scope.

Section C.
  Variable spline : interp -> grid -> (nat -> nat -> R) -> list R -> list R.
  Variable spline_ms : interp -> grid -> grid -> tensor -> list R -> list R -> list R.
  Variable lsolve : (nat -> nat -> R) -> (nat -> R) -> res (nat -> R).
  Variable nan : R.

  Section L.
    Variable md : ti_model.
    Variable d : dexo.
    Variable k : interp.
    Notation s := (endo_nodes (tm_endo_grid md)).
    Notation n_x := (length (tm_x0 md)).
    Notation N := (length s).
    Notation ip := (rule_ijs spline spline_ms k (tm_exo_grid md) (tm_endo_grid md) d).
    Notation loop := (ti_loop (tm_g md) (tm_f md) d s n_x ip lsolve nan).
    Notation loop_t := (ti_loop_trace spline spline_ms lsolve nan md d k).
    Notation inner := (ti_inner (tm_g md) (tm_f md) d s n_x ip lsolve nan).

    Lemma loop_forget : forall tol im fb fuel it err c0 ctl tr,
        match loop_t tol im fb fuel it err c0 ctl tr with
        | Ok (c, n, e, _) => loop tol im fb fuel it err c0 ctl = Ok (c, n, e)
        | Err e => loop tol im fb fuel it err c0 ctl = Err e
        end.
    Proof.
      intros tol im fb fuel. induction fuel as [|fuel IH]; intros it err c0 ctl tr; cbn [ti_loop_trace ti_loop]; [reflexivity|].
      destruct (Rlt_dec tol err); [|reflexivity].
      destruct (Nat.eqb (size d s n_x) 0); [reflexivity|].
      destruct (inner im fb c0) as [a|e]; [|reflexivity]. cbn [bind]. apply IH.
    Qed.

    Definition snap (c : nat -> R) : solved_rule := snapshot md d k (unflatten N n_x c).

    (** The rules recorded so far, in order, with the current one. *)
    Definition so_far (c0 : nat -> R) (tr : list solved_rule) : list solved_rule := rev (snap c0 :: tr).

    Definition linked im fb (l : list solved_rule) : Prop :=
      forall j x y, nth_error l j = Some x -> nth_error l (S j) = Some y ->
        exists a b nit cv, x = snap a /\ y = snap b /\ inner im fb a = Ok (b, nit, cv).

    Lemma linked_snoc : forall im fb l a b nit cv,
        linked im fb (l ++ [snap a]) -> inner im fb a = Ok (b, nit, cv) ->
        linked im fb ((l ++ [snap a]) ++ [snap b]).
    Proof.
      intros im fb l a b nit cv H E j x y Hx Hy.
      destruct (Nat.lt_ge_cases (S j) (length (l ++ [snap a]))) as [Hj|Hj].
      - rewrite nth_error_app1 in Hx by lia. rewrite nth_error_app1 in Hy by lia. apply (H j); assumption.
      - assert (Hy' : (S j < length ((l ++ [snap a]) ++ [snap b]))%nat) by (apply nth_error_Some; congruence).
        rewrite app_length in Hj. rewrite !app_length in Hy'. cbn [length] in *.
        assert (Ej : j = length l) by lia. subst j. exists a, b, nit, cv.
        split; [|split; [|assumption]].
        + rewrite nth_error_app1 in Hx by (rewrite app_length; cbn [length]; lia).
          rewrite nth_error_app2 in Hx by lia. rewrite Nat.sub_diag in Hx. injection Hx as <-. reflexivity.
        + rewrite nth_error_app2 in Hy by (rewrite app_length; cbn [length]; lia).
          rewrite app_length in Hy. cbn [length] in Hy. replace (S (length l) - (length l + 1))%nat with 0%nat in Hy by lia.
          injection Hy as <-. reflexivity.
    Qed.

    Lemma loop_trace_run : forall tol im fb fuel it err c0 ctl tr c it' err' tr',
        loop_t tol im fb fuel it err c0 ctl tr = Ok (Some c, it', err', tr') ->
        (forall c1, ctl = Some c1 -> c1 = c0) ->
        length tr = it -> linked im fb (so_far c0 tr) ->
        length tr' = it' /\ linked im fb (so_far c tr') /\ exists t, so_far c tr' = so_far c0 tr ++ t.
    Proof.
      intros tol im fb fuel. induction fuel as [|fuel IH]; intros it err c0 ctl tr c it' err' tr' H HC Hl HL;
        cbn [ti_loop_trace] in H.
      - injection H as E1 E2 E3 E4. pose proof (HC _ E1) as ->. subst. split; [reflexivity|]. split; [assumption|].
        exists []. rewrite app_nil_r. reflexivity.
      - destruct (Rlt_dec tol err).
        2:{ injection H as E1 E2 E3 E4. pose proof (HC _ E1) as ->. subst. split; [reflexivity|]. split; [assumption|].
            exists []. rewrite app_nil_r. reflexivity. }
        destruct (Nat.eqb (size d s n_x) 0); [discriminate|].
        destruct (inner im fb c0) as [[[c1 nit] cv]|e] eqn:E; [|discriminate]. cbn [bind fst] in H.
        apply IH in H.
        + destruct H as (A & B & t & C). split; [assumption|]. split; [assumption|].
          exists (snap c1 :: t). rewrite C. unfold so_far. cbn [rev]. rewrite <- !app_assoc. reflexivity.
        + intros c2 Hc. congruence.
        + cbn [length]. lia.
        + unfold so_far in *. cbn [rev] in *. apply (linked_snoc im fb (rev tr) c0 c1 nit cv); assumption.
    Qed.
  End L.

  Notation call := (time_iteration_call spline spline_ms lsolve nan).

  Definition used (md : ti_model) (a : ti_args) : dexo := match ta_process a with Some d => d | None => tm_process md end.

  Lemma used_spec : forall md a, process_used md a (used md a).
  Proof. intros md a. unfold used, process_used. destruct (ta_process a); [left; reflexivity|right; split; reflexivity]. Qed.

  Lemma process_used_inj : forall md a d, process_used md a d -> d = used md a.
  Proof. intros md a d [H|[H H']]; unfold used; rewrite H; [reflexivity|assumption]. Qed.

  Lemma bounds_used_spec : forall md a d, bounds_used md a d (node_bounds md d (wants_bounds a)).
  Proof.
    intros md a d. unfold bounds_used, bounds_count, node_bounds, wants_bounds.
    destruct (tm_bounds md) as [[lb ub]|] eqn:E.
    - destruct (ta_compl a) as [[|]|] eqn:Ec.
      + right. split; [split; [discriminate|left; reflexivity]|]. do 4 eexists. split; [reflexivity|]. split; [reflexivity|].
        intros; split; reflexivity.
      + left. split; [|reflexivity]. intros [_ [K|[K _]]]; discriminate.
      + destruct (ta_ignore a) eqn:Ei; cbn [negb].
        * left. split; [|reflexivity]. intros [_ [K|[_ K]]]; discriminate.
        * right. split; [split; [discriminate|right; split; reflexivity]|]. do 4 eexists. split; [reflexivity|].
          split; [reflexivity|]. intros; split; reflexivity.
    - left. split; [|reflexivity]. intros [K _]. congruence.
  Qed.

  (** The call is the solver of TimeIteration.v for the process and bounds in use. *)
  Lemma call_is_run : forall md a rule det, call md a = Ok (rule, det) ->
      exists k d c0 b r,
        process_used md a d /\ interp_method (ta_interp a) = Ok k /\
        initial_controls d (endo_nodes (tm_endo_grid md)) (tm_x0 md) (ta_dr0 a) = Ok c0 /\
        bounds_used md a d b /\
        time_iteration (tm_g md) (tm_f md) d (endo_nodes (tm_endo_grid md)) (length (tm_x0 md))
          (rule_ijs spline spline_ms k (tm_exo_grid md) (tm_endo_grid md) d) lsolve nan
          (ta_tol a) (ta_maxit a) (ta_inner a) b c0 = Ok r /\
        sr_values rule = ti_controls r /\ sr_interp rule = k /\ sr_process rule = d /\
        (det = None <-> ta_details a = false) /\
        forall dt, det = Some dt ->
          dt_iterations dt = ti_iterations r /\ dt_compl dt = ti_compl r /\ dt_process dt = d /\
          dt_converged dt = ti_converged r /\ dt_tol dt = ta_tol a /\ dt_err dt = ti_err r /\
          (ta_trace a = false -> dt_trace dt = None).
  Proof.
    intros md a rule det H. unfold time_iteration_call in H. fold (used md a) in H. cbv zeta in H.
    destruct (interp_method (ta_interp a)) as [k|] eqn:Ek; [|discriminate]. cbn [bind] in H.
    destruct (initial_controls _ _ _ _) as [c0|] eqn:Ec; [|discriminate]. cbn [bind] in H.
    destruct (first_pass k (tm_exo_grid md) (tm_endo_grid md) (used md a)) as [e|].
    { destruct (Nat.eqb _ 0); [discriminate|]. destruct (Rlt_dec _ _); discriminate. }
    match type of H with bind ?L _ = _ => destruct L as [[[[ctl it] err] tr]|e] eqn:EL end; [|discriminate].
    cbn [bind] in H. destruct ctl as [c|]; [|discriminate]. injection H as <- <-.
    match type of EL with ti_loop_trace _ _ _ _ _ _ _ ?t ?im ?fb ?m ?i ?er ?c1 ?ct ?tr0 = _ =>
      pose proof (loop_forget md (used md a) k t im fb m i er c1 ct tr0) as F end.
    rewrite EL in F. cbv beta iota in F.
    exists k, (used md a), c0, (node_bounds md (used md a) (wants_bounds a)).
    eexists. split; [apply used_spec|]. split; [reflexivity|]. split; [exact Ec|]. split; [apply bounds_used_spec|].
    split. { unfold time_iteration. cbv zeta. rewrite F. reflexivity. }
    cbn [ti_controls ti_iterations ti_compl ti_converged ti_tol ti_err]. cbn [snapshot sr_values sr_interp sr_process].
    split; [reflexivity|]. split; [reflexivity|]. split; [reflexivity|].
    destruct (ta_details a).
    - split; [split; discriminate|]. intros dt Hd. injection Hd as <-.
      cbn [dt_iterations dt_compl dt_process dt_converged dt_tol dt_err dt_trace].
      repeat (split; [reflexivity|]). intros ->. reflexivity.
    - split; [split; reflexivity|]. intros dt Hd. discriminate.
  Qed.

  (** The trace of a run. *)
  Lemma call_trace : forall md a rule dt, call md a = Ok (rule, Some dt) -> ta_trace a = true ->
      exists t k d c0 b,
        dt_trace dt = Some t /\ process_used md a d /\ interp_method (ta_interp a) = Ok k /\
        initial_controls d (endo_nodes (tm_endo_grid md)) (tm_x0 md) (ta_dr0 a) = Ok c0 /\ bounds_used md a d b /\
        (forall x, In x t -> sr_exo_grid x = sr_exo_grid rule /\ sr_endo_grid x = sr_endo_grid rule /\
                             sr_interp x = k /\ sr_process x = d) /\
        run_recorded
          (fun x y => exists nit, ti_update (tm_g md) (tm_f md) d (endo_nodes (tm_endo_grid md)) (length (tm_x0 md))
             (rule_ijs spline spline_ms k (tm_exo_grid md) (tm_endo_grid md) d) lsolve nan (ta_inner a) b nit x y)
          (same_values d (length (endo_nodes (tm_endo_grid md))) (length (tm_x0 md)) c0)
          (dt_iterations dt) (sr_values rule) (map sr_values t).
  Proof.
    intros md a rule dt H Ht.
    destruct (call_is_run _ _ _ _ H) as (k & d & c0 & b & r & Pd & Ek & Ec & Pb & Er & Ev & Ei & Ep & _ & Ed).
    destruct (Ed dt eq_refl) as (Eit & _). clear Ed.
    destruct (time_iteration_run _ _ _ _ _ _ _ _ _ _ _ _ _ _ Er) as (Hit & _ & _ & _ & _).
    rewrite <- Eit in Hit.
    unfold time_iteration_call in H. fold (used md a) in H. cbv zeta in H.
    rewrite Ek in H. cbn [bind] in H. pose proof (process_used_inj _ _ _ Pd) as Ed. rewrite <- Ed in H.
    rewrite Ec in H. cbn [bind] in H.
    destruct (first_pass k (tm_exo_grid md) (tm_endo_grid md) d) as [e|].
    { destruct (Nat.eqb _ 0); [discriminate|]. destruct (Rlt_dec _ _); discriminate. }
    match type of H with bind ?L _ = _ => destruct L as [[[[ctl it] err] tr]|e] eqn:EL end; [|discriminate].
    cbn [bind] in H. destruct ctl as [c|]; [|discriminate]. rewrite Ht in H.
    injection H as <- Hdt. destruct (ta_details a); [|discriminate]. injection Hdt as <-.
    cbn [dt_iterations] in *. cbn [sr_values snapshot] in *.
    set (s := endo_nodes (tm_endo_grid md)) in *. set (n_x := length (tm_x0 md)) in *.
    assert (Hsz : size d s n_x <> 0%nat).
    { intro K. destruct (ta_maxit a) as [|m]; [lia|]. cbn [ti_loop_trace] in EL.
      destruct (Rlt_dec (ta_tol a) 10).
      - fold s n_x in EL. rewrite K in EL. discriminate EL.
      - injection EL as E1. discriminate. }
    destruct (size_pos d s n_x Hsz) as (HN & Hx & _).
    apply (loop_trace_run md d k) in EL.
    - destruct EL as (A & B & u & C).
      exists (so_far md d k c tr), k, d, c0, (node_bounds md d (wants_bounds a)).
      split; [reflexivity|]. split; [assumption|]. split; [assumption|]. split; [assumption|].
      split; [apply bounds_used_spec|].
      assert (Sn : forall x, In x (so_far md d k c tr) -> exists v, x = snap md d k v).
      { intros x Hx'. apply In_nth_error in Hx'. destruct Hx' as [j Hj].
        assert (Len : length (so_far md d k c tr) = S it).
        { unfold so_far. rewrite rev_length. cbn [length]. lia. }
        assert (Hj' : (j < S it)%nat) by (rewrite <- Len; apply nth_error_Some; congruence).
        destruct j as [|j].
        - destruct (nth_error (so_far md d k c tr) 1) as [y|] eqn:Ey.
          + destruct (B 0%nat x y Hj Ey) as (p & q & _ & _ & -> & _). exists p. reflexivity.
          + apply nth_error_None in Ey. lia.
        - destruct (nth_error (so_far md d k c tr) j) as [y|] eqn:Ey.
          + destruct (B j y x Ey Hj) as (p & q & _ & _ & _ & -> & _). exists q. reflexivity.
          + apply nth_error_None in Ey. lia. }
      split.
      { intros x Hx'. destruct (Sn x Hx') as [v ->]. repeat split. }
      assert (Len : length (so_far md d k c tr) = S it).
      { unfold so_far. rewrite rev_length. cbn [length]. lia. }
      split; [rewrite map_length; exact Len|]. split; [|split].
      + rewrite C. unfold so_far. cbn [rev app map nth_error]. eexists. split; [reflexivity|].
        cbn [snap snapshot sr_values]. intros i n j Hi Hn Hj. fold s n_x. symmetry. apply unflatten_flatten; assumption.
      + unfold so_far. cbn [rev]. rewrite map_app. rewrite nth_error_app2 by (rewrite map_length, rev_length; lia).
        rewrite map_length, rev_length, A, Nat.sub_diag. reflexivity.
      + intros j x y Hx' Hy'. rewrite nth_error_map in Hx', Hy'.
        destruct (nth_error (so_far md d k c tr) j) as [x1|] eqn:Ex; [|discriminate].
        destruct (nth_error (so_far md d k c tr) (S j)) as [y1|] eqn:Ey; [|discriminate].
        injection Hx' as <-. injection Hy' as <-.
        destruct (B j x1 y1 Ex Ey) as (p & q & nit & cv & -> & -> & Ein). exists nit, q, cv.
        cbn [snap snapshot sr_values]. fold s n_x. rewrite flatten_unflatten_eq by assumption.
        split; [|reflexivity]. rewrite <- Ein. unfold flat_bounds, flat_ext. destruct (node_bounds md d (wants_bounds a)) as [[l u']|]; reflexivity.
    - intros c1 K. discriminate.
    - reflexivity.
    - intros j x y Hx' Hy'. destruct j; discriminate.
  Qed.

  Lemma loop_relocated : forall md p nodes d k tol im fb fuel it err c0 ctl tr,
      tm_exo_grid md = GUnstructured p ->
      ti_loop_trace spline spline_ms lsolve nan (with_chain md nodes d) d k tol im fb fuel it err c0 ctl
        (map (relocate (GUnstructured nodes)) tr) =
      bind (ti_loop_trace spline spline_ms lsolve nan md d k tol im fb fuel it err c0 ctl tr)
        (fun b => let '(c, n, e, t) := b in Ok (c, n, e, map (relocate (GUnstructured nodes)) t)).
  Proof.
    intros md p nodes d k tol im fb fuel. induction fuel as [|fuel IH]; intros it err c0 ctl tr Hp; cbn [ti_loop_trace]; [reflexivity|].
    destruct (Rlt_dec tol err); [|reflexivity]. cbn [with_chain tm_endo_grid tm_x0 tm_g tm_f tm_exo_grid].
    destruct (Nat.eqb _ 0); [reflexivity|].
    assert (E : rule_ijs spline spline_ms k (GUnstructured nodes) (tm_endo_grid md) d =
                rule_ijs spline spline_ms k (tm_exo_grid md) (tm_endo_grid md) d) by (rewrite Hp; reflexivity).
    rewrite E. destruct (ti_inner _ _ _ _ _ _ _ _ _ _ _) as [x|e]; [|reflexivity]. cbn [bind].
    rewrite <- IH by assumption. reflexivity.
  Qed.

  Lemma call_chain : forall md p a nodes d,
      tm_exo_grid md = GUnstructured p -> ta_process a = Some d ->
      call (with_chain md nodes d) (without_process a) =
      bind (call md a) (fun b => Ok (relocate_result (GUnstructured nodes) b)).
  Proof.
    intros md p a nodes d Hp Ha. unfold time_iteration_call.
    cbn [with_chain without_process ta_process tm_process ta_dr0 ta_details ta_ignore ta_trace ta_maxit ta_inner ta_tol ta_interp ta_compl
         tm_endo_grid tm_x0 tm_exo_grid]. rewrite Ha, Hp. cbv zeta.
    destruct (interp_method (ta_interp a)) as [k|e]; [|reflexivity]. cbn [bind].
    destruct (initial_controls d _ _ _) as [c0|e]; [|reflexivity]. cbn [bind].
    assert (E : first_pass k (GUnstructured nodes) (tm_endo_grid md) d = first_pass k (GUnstructured p) (tm_endo_grid md) d) by (destruct k; reflexivity).
    rewrite E. destruct (first_pass k (GUnstructured p) (tm_endo_grid md) d) as [e|].
    { destruct (Nat.eqb _ 0); [reflexivity|]. destruct (Rlt_dec _ _); reflexivity. }
    change (node_bounds (with_chain md nodes d) d (wants_bounds (without_process a))) with (node_bounds md d (wants_bounds a)).
    match goal with |- bind ?L _ = bind (bind ?M _) _ =>
      assert (EL : L = bind M (fun b => let '(c, n, e, t) := b in Ok (c, n, e, map (relocate (GUnstructured nodes)) t)))
        by exact (loop_relocated md p nodes d k _ _ _ _ _ _ _ _ [] Hp) end.
    rewrite EL. match goal with |- bind (bind ?M _) _ = _ => destruct M as [[[[ctl it] err] tr]|e] end; [|reflexivity].
    cbn [bind]. destruct ctl as [c|]; [|reflexivity]. cbn [bind]. unfold relocate_result. cbn [fst snd].
    destruct (ta_details a); [|reflexivity].
    cbn [dt_iterations dt_compl dt_process dt_converged dt_tol dt_err dt_trace].
    destruct (ta_trace a); [|reflexivity]. cbn [rev]. rewrite map_app, map_rev. reflexivity.
  Qed.

  Lemma call_grid : forall md a rule det, call md a = Ok (rule, det) ->
      sr_exo_grid rule = tm_exo_grid md /\ sr_endo_grid rule = tm_endo_grid md.
  Proof.
    intros md a rule det H. unfold time_iteration_call in H. cbv zeta in H.
    destruct (interp_method (ta_interp a)) as [k|]; [|discriminate]. cbn [bind] in H.
    destruct (initial_controls _ _ _ _) as [c0|]; [|discriminate]. cbn [bind] in H.
    destruct (first_pass k (tm_exo_grid md) (tm_endo_grid md) _) as [e|].
    { destruct (Nat.eqb _ 0); [discriminate|]. destruct (Rlt_dec _ _); discriminate. }
    match type of H with bind ?L _ = _ => destruct L as [[[[ctl it] err] tr]|e] end; [|discriminate].
    cbn [bind] in H. destruct ctl as [c|]; [|discriminate]. injection H as <- _. split; reflexivity.
  Qed.

  (** A run of TimeIteration.v is a call that returns. *)
  Lemma call_returns : forall md a k c0 r,
      interp_method (ta_interp a) = Ok k -> first_pass k (tm_exo_grid md) (tm_endo_grid md) (used md a) = None ->
      initial_controls (used md a) (endo_nodes (tm_endo_grid md)) (tm_x0 md) (ta_dr0 a) = Ok c0 ->
      time_iteration (tm_g md) (tm_f md) (used md a) (endo_nodes (tm_endo_grid md)) (length (tm_x0 md))
          (rule_ijs spline spline_ms k (tm_exo_grid md) (tm_endo_grid md) (used md a)) lsolve nan
          (ta_tol a) (ta_maxit a) (ta_inner a) (node_bounds md (used md a) (wants_bounds a)) c0 = Ok r ->
      exists rule det, call md a = Ok (rule, det).
  Proof.
    intros md a k c0 r Hk Hf Hc H. unfold time_iteration_call. fold (used md a). cbv zeta.
    rewrite Hk. cbn [bind]. rewrite Hc. cbn [bind]. rewrite Hf.
    unfold time_iteration in H. cbv zeta in H.
    match goal with |- exists rule det, bind (ti_loop_trace _ _ _ _ _ _ _ ?t ?im ?fb ?m ?i ?er ?c1 ?ct ?tr0) _ = _ =>
      pose proof (loop_forget md (used md a) k t im fb m i er c1 ct tr0) as F end.
    match type of F with match ?L with _ => _ end => destruct L as [[[[ctl it] err] tr]|e] end.
    - rewrite F in H. cbn [bind] in H. destruct ctl as [c|]; [|discriminate]. cbn [bind]. do 2 eexists. reflexivity.
    - rewrite F in H. discriminate.
  Qed.
End C.

(** Values for another number of exogenous nodes do not keep their number of columns on a Cartesian grid. *)
Lemma prodn_app : forall a b, prodn (a ++ b) = (prodn a * prodn b)%nat.
Proof. induction a as [|x a IH]; intros b; cbn [app prodn]; [lia|]. rewrite IH. lia. Qed.

Lemma reshaped_columns : forall x exo_dims endo_dims n n_x c,
    (0 < n_x)%nat -> nd_shape x = [n; prodn endo_dims; n_x] -> n <> prodn exo_dims ->
    reshape_last x (exo_dims ++ endo_dims) = Ok c -> last (nd_shape c) 0%nat <> n_x.
Proof.
  intros x exo_dims endo_dims n n_x c Hx Hs Hn H. unfold reshape_last in H. rewrite Hs in H.
  destruct (Nat.eqb_spec (prodn (exo_dims ++ endo_dims)) 0) as [|Hp]; [discriminate|].
  destruct (Nat.eqb_spec (prodn [n; prodn endo_dims; n_x] mod prodn (exo_dims ++ endo_dims)) 0) as [Hm|]; [|discriminate].
  injection H as <-. cbn [nd_shape]. rewrite last_last. intros E.
  rewrite prodn_app in *. apply Nat.div_exact in Hm; [|assumption]. cbn [prodn] in E, Hm. rewrite E in Hm.
  assert (prodn endo_dims <> 0%nat) by lia. apply Hn. nia.
Qed.

Lemma uniform_reshaped : forall pre a b x n n_x c,
    (0 < n_x)%nat -> nd_shape x = [n; prodn (u_n b); n_x] -> n <> prodn (u_n a) ->
    get_coefficients pre (GUniform a) (GUniform b) Linear x = Ok (CArr c) -> last (nd_shape c) 0%nat <> n_x.
Proof.
  intros pre a b x n n_x c Hx Hs Hn H. cbn [get_coefficients grid_dims grid_add] in H.
  destruct (uniform_add a b) as [g|] eqn:E; [|discriminate]. cbn [bind grid_dims] in H.
  destruct (reshape_last x (u_n g)) as [c'|] eqn:Er; [|discriminate]. cbn [bind] in H. injection H as <-.
  assert (Eu : u_n g = u_n a ++ u_n b).
  { unfold uniform_add, uniform_grid in E. destruct (u_n a ++ u_n b) as [|q l] eqn:El; [discriminate|].
    destruct (mlinspace _ _ _) as [nodes|]; [|discriminate]. cbn [bind] in E. injection E as <-. reflexivity. }
  rewrite Eu in Er. exact (reshaped_columns x (u_n a) (u_n b) n n_x _ Hx Hs Hn Er).
Qed.
