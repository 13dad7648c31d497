From Coq Require Import String Reals List Arith Lia Lra Bool FunctionalExtensionality.
From Verif.Base Require Import Prelude Arrays Norms Ext.
From Verif.Spec Require Import Euler Complementarity ImprovedTimeIteration ItiCall.
From Verif.Model Require Import Discretization Grids Processes DecisionRule Complementarity LinearSolve NumDiff TimeIteration TimeIterationCall
  ImprovedTimeIteration Bruteforce ItiCall.
From Verif.Proofs Require Import TimeIterationProofs ImprovedTimeIterationProofs.
Import ListNotations.
Open Scope R_scope.

Section Loop.
  Variable g : list R -> list R -> list R -> list R -> list R.
  Variable f : list R -> list R -> list R -> list R -> list R -> list R -> nat -> R.
  Variable exo : dexo.
  Variable s : list (list R).
  Variable n_x : nat.
  Variable interpolate : tensor -> nat -> nat -> list R -> list R.
  Variable lb ub : tensor_ext.
  Variable compl : bool.
  Variable nan : R.
  Variable gmres : R -> ((nat -> R) -> nat -> R) -> (nat -> R) -> (nat -> R) * nat.
  Notation N := (length s).
  Notation n_m := (Nat.max (ex_n exo) 1).
  Notation n_im := (dp_n (ex_dp exo) 0).
  Notation err := (error_at g f exo s n_x interpolate lb ub compl nan).
  Notation cstep := (call_step g f exo s n_x interpolate lb ub compl nan gmres).
  Notation loop := (call_loop g f exo s n_x interpolate lb ub compl nan gmres).
  Notation evl := (fun (p : tensor) i j S l => nth l (interpolate p i j S) 0).
  Notation futl := (fun (x : tensor) i j n => nth n (next_states g exo s n_x x i j) []).

  Lemma call_loop_run : forall tol maxb smaxit inv fuel it x r L,
      loop tol maxb smaxit inv fuel it x = Ok (r, L) ->
      exists c p tot J,
        (c < fuel)%nat /\ iti_N r = (it + c)%nat /\
        updates (fun x y => tol <= err x /\ pass_by err (fun x t => exists J, cstep tol smaxit inv x = Ok (t, J)) maxb x y) c x p /\
        iti_f_x r = err p /\ cstep tol smaxit inv p = Ok (tot, J) /\ iti_d_x r = tnorm n_m N n_x tot /\
        L = op_apply evl n_m n_im n_x J (futl p) /\
        (iti_converged r = true -> iti_x r = p /\ err p < tol) /\
        (iti_converged r = false -> S c = fuel /\ tol <= err p /\
           pass_by err (fun x t => exists J, cstep tol smaxit inv x = Ok (t, J)) maxb p (iti_x r)).
  Proof.
    intros tol maxb smaxit inv. induction fuel as [|fuel IH]; intros it x r L H; [discriminate|]. cbn [call_loop] in H.
    fold (err x) in H.
    destruct (cstep tol smaxit inv x) as [[tot J]|e] eqn:Es; [|discriminate]. cbn [bind fst snd] in H.
    destruct (backsteps _ _ _ _ _ _ _ _ _ _ maxb 0 _ x tot) as [y|] eqn:Eb; [|discriminate].
    apply backsteps_spec in Eb. destruct Eb as (b & Hb & Ey & Ho & Hc).
    assert (Hp : pass_by err (fun x t => exists J, cstep tol smaxit inv x = Ok (t, J)) maxb x y).
    { exists tot, b. split; [exists J; assumption|]. split; [lia|]. split; [intros; rewrite Ey; reflexivity|]. split.
      - destruct Ho; [left; assumption|right; lia].
      - intros c Hcb. apply Hc. lia. }
    destruct (Rlt_dec (err x) tol) as [Hlt|Hge].
    - injection H as <- <-. exists 0%nat, x, tot, J. cbn [iti_N iti_f_x iti_d_x iti_converged iti_x].
      repeat split; try lia; try reflexivity; try assumption; try constructor; discriminate.
    - destruct fuel as [|fuel].
      + injection H as <- <-. exists 0%nat, x, tot, J. cbn [iti_N iti_f_x iti_d_x iti_converged iti_x].
        split; [lia|]. split; [lia|]. split; [constructor|]. split; [reflexivity|]. split; [assumption|].
        split; [reflexivity|]. split; [reflexivity|]. split; [discriminate|]. intros _. split; [reflexivity|]. split; [lra|assumption].
      + change (loop tol maxb smaxit inv (S fuel) (S it) y = Ok (r, L)) in H.
        apply IH in H. destruct H as (c & p & tot' & J' & H1 & H2 & H3 & H4 & H5 & H6 & H7 & H8 & H9).
        exists (S c), p, tot', J'. split; [lia|]. split; [lia|]. split; [|split; [assumption|]].
        * econstructor; [|exact H3]. split; [lra|assumption].
        * split; [assumption|]. split; [assumption|]. split; [assumption|]. split; [assumption|].
          intros Hf. destruct (H9 Hf). split; [lia|assumption].
  Qed.

  (** Without gmres, the loop of ImprovedTimeIteration.v. *)
  Lemma call_loop_series : forall tol maxb smaxit inv fuel it x, inv <> "gmres"%string ->
      match loop tol maxb smaxit inv fuel it x with
      | Ok (r, _) => iti_loop g f exo s n_x interpolate lb ub compl nan tol maxb smaxit fuel it x = Ok r
      | Err e => iti_loop g f exo s n_x interpolate lb ub compl nan tol maxb smaxit fuel it x = Err e
      end.
  Proof.
    intros tol maxb smaxit inv fuel it x Hinv. revert it x.
    induction fuel as [|fuel IH]; intros it x; [reflexivity|]. cbn [call_loop iti_loop].
    unfold call_step, iti_step. destruct (premultiply _ _ _ _ _ _) as [J|e]; [|reflexivity]. cbn [bind].
    rewrite (proj2 (String.eqb_neq _ _) Hinv).
    destruct (invert_jac _ _ _ _ _ _ _ _ _ _ _) as [a|e]; [|reflexivity]. cbn [bind fst snd].
    destruct (backsteps _ _ _ _ _ _ _ _ _ _ _ _ _ _ _) as [y|]; [|reflexivity].
    destruct (Rlt_dec _ _); [reflexivity|]. destruct fuel as [|fuel]; [reflexivity|]. apply IH.
  Qed.

  Hypothesis Hconst : forall i, (i < ex_n exo)%nat -> dp_n (ex_dp exo) i = dp_n (ex_dp exo) 0.
  Notation E x i n k := (euler g f (dp_n (ex_dp exo) i) (dp_weight (ex_dp exo) i) (dp_node (ex_dp exo) i) (interpolate x i)
                           (ex_node exo i) (nth n s []) (at_node n_x x i n) k).

  Lemma error_entry : forall p i n k, (i < ex_n exo)%nat -> (n < N)%nat -> (k < n_x)%nat ->
      if compl then Rabs (orn nan (iti_value (lb i n k) (ub i n k) (p i n k) (E p i n k))) <= err p
      else Rabs (E p i n k) <= err p.
  Proof.
    intros p i n k Hi Hn Hk.
    pose proof (tnorm_ge n_m N n_x (iti_res g f exo s n_x interpolate lb ub compl nan p) i n k ltac:(lia) Hn Hk) as G.
    fold (err p) in G. unfold iti_res in G at 1.
    rewrite euler_total_value in G by assumption. destruct compl; [|exact G].
    unfold iti_smoothed in G. unfold eul in G. destruct (iti_value _ _ _ _); cbn [orn] in G |- *; [rewrite Rabs_Ropp in G|]; exact G.
  Qed.
End Loop.

Section C.
  Variable spline : interp -> grid -> (nat -> nat -> R) -> list R -> list R.
  Variable spline_ms : interp -> grid -> grid -> tensor -> list R -> list R -> list R.
  Variable nan : R.
  Variable gmres : R -> ((nat -> R) -> nat -> R) -> (nat -> R) -> (nat -> R) * nat.
  Variable eigs : ((nat -> R) -> nat -> R) -> nat -> res R.
  Notation call := (iti_call spline spline_ms nan gmres eigs).

  Definition iused (md : ti_model) (a : iti_args) : dexo := match ia_process a with Some d => d | None => tm_process md end.

  Lemma iused_spec : forall md a, iti_process_used md a (iused md a).
  Proof. intros md a. unfold iused, iti_process_used. destruct (ia_process a); [left; reflexivity|right; split; reflexivity]. Qed.

  Lemma wants_spec : forall a, iti_wants_bounds a = true <-> constraints_imposed a.
  Proof.
    intros a. unfold iti_wants_bounds, constraints_imposed. destruct (ia_compl a) as [[|]|].
    - split; [left; reflexivity|reflexivity].
    - split; [discriminate|]. intros [K|[K _]]; discriminate.
    - destruct (ia_ignore a); cbn [negb].
      + split; [discriminate|]. intros [K|[_ K]]; discriminate.
      + split; [right; split; reflexivity|reflexivity].
  Qed.

  Lemma interp_spec : forall a k, iti_interp (ia_interp a) = Ok k -> interp_wanted a k.
  Proof.
    intros a k H. unfold iti_interp in H. destruct (String.eqb_spec (ia_interp a) "cubic").
    - left. split; [assumption|]. injection H as <-. reflexivity.
    - destruct (String.eqb_spec (ia_interp a) "linear"); [|discriminate].
      right. split; [assumption|]. injection H as <-. reflexivity.
  Qed.

  Lemma fill_spec : forall N n_x callf n c0,
      fill_controls n N n_x callf = Ok c0 ->
      forall i, (i < n)%nat -> exists p, callf i = Ok p /\
        match p with
        | P2 rows => length rows = N /\ forall m k, (m < N)%nat -> c0 i m k = nth k (nth m rows []) 0
        | P1 r => forall m k, c0 i m k = nth k r 0
        end.
  Proof.
    intros N n_x callf n c0 H. unfold fill_controls in H.
    match type of H with for_range_res _ ?bd _ = _ => set (body := bd) in H end.
    assert (G : forall n acc, for_range_res n body (fun _ _ _ => 0) = Ok acc ->
      forall i, (i < n)%nat -> exists p, callf i = Ok p /\
        match p with
        | P2 rows => length rows = N /\ forall m k, (m < N)%nat -> acc i m k = nth k (nth m rows []) 0
        | P1 r => forall m k, acc i m k = nth k r 0
        end).
    { clear n c0 H. induction n as [|n IH]; intros acc H i Hi; [lia|].
      cbn [for_range_res] in H. destruct (for_range_res n body _) as [acc'|e]; [|discriminate]. cbn [bind] in H.
      unfold body in H at 1. destruct (callf n) as [p|e] eqn:Ep; [|discriminate]. cbn [bind] in H.
      destruct (Nat.eq_dec i n) as [->|Hne].
      - exists p. split; [assumption|]. destruct p as [r|rows].
        + destruct (Nat.eqb _ _); [|discriminate]. injection H as <-. intros m k. rewrite Nat.eqb_refl. reflexivity.
        + destruct (Nat.eqb_spec (length rows) N); [|discriminate]. destruct (forallb _ _); [|discriminate].
          injection H as <-. split; [assumption|]. intros m k _. rewrite Nat.eqb_refl. reflexivity.
      - destruct (IH acc' eq_refl i ltac:(lia)) as (p' & Ep' & Hp'). exists p'. split; [assumption|].
        assert (K : forall m k, acc i m k = acc' i m k).
        { destruct p as [r|rows].
          - destruct (Nat.eqb _ _); [|discriminate]. injection H as <-. intros m k. rewrite (proj2 (Nat.eqb_neq i n) Hne). reflexivity.
          - destruct (andb _ _); [|discriminate]. injection H as <-. intros m k. rewrite (proj2 (Nat.eqb_neq i n) Hne). reflexivity. }
        destruct p' as [r'|rows'].
        + intros m k. rewrite K. apply Hp'.
        + destruct Hp' as [Hl Hp']. split; [assumption|]. intros m k Hm. rewrite K. apply Hp'. assumption. }
    exact (G n c0 H).
  Qed.

  Lemma initial_spec : forall md a c0,
      iti_initial (iused md a) (endo_nodes (tm_endo_grid md)) (tm_x0 md) (ia_dr0 a) = Ok c0 ->
      starts_at md a (iused md a) c0.
  Proof.
    intros md a c0 H. unfold iti_initial in H. unfold starts_at. destruct (ia_dr0 a) as [|e|]; [|exact (fill_spec _ _ _ _ _ H)|discriminate].
    injection H as <-. reflexivity.
  Qed.

  Definition lower (md : ti_model) (lb : list R -> list R -> nat -> ext) (d : dexo) : tensor_ext :=
    fun i n => lb (ex_node d i) (nth n (endo_nodes (tm_endo_grid md)) []).

  (** A call that returns: what was run. *)
  Lemma call_inv : forall md a rule det, call md a = Ok (rule, det) ->
      exists k c0 lb ub,
        tm_bounds md = Some (lb, ub) /\ interp_wanted a k /\ starts_at md a (iused md a) c0 /\
        sr_exo_grid rule = tm_exo_grid md /\ sr_endo_grid rule = tm_endo_grid md /\
        sr_process rule = iused md a /\ sr_interp rule = k /\ (0 < ex_n (iused md a))%nat /\
        ((ia_maxit a = 0%nat /\ ia_details a = false /\ det = None /\ sr_values rule = c0) \/
         ((0 < ia_maxit a)%nat /\ Nat.eqb (Nat.max (ex_n (iused md a)) 1 * length (endo_nodes (tm_endo_grid md)) * length (tm_x0 md)) 0 = false /\
          exists r L,
          call_loop (tm_g md) (tm_f md) (iused md a) (endo_nodes (tm_endo_grid md)) (length (tm_x0 md))
            (rule_ijs spline spline_ms k (tm_exo_grid md) (tm_endo_grid md) (iused md a))
            (lower md lb (iused md a)) (lower md ub (iused md a)) (iti_wants_bounds a) nan gmres
            (ia_tol a) (ia_maxbsteps a) (ia_smaxit a) (ia_invmethod a) (ia_maxit a) 0 c0 = Ok (r, L) /\
          sr_values rule = iti_x r /\ (det = None <-> ia_details a = false) /\
          forall dt, det = Some dt ->
            id_N dt = iti_N r /\ id_f_x dt = iti_f_x r /\ id_d_x dt = iti_d_x r /\ id_converged dt = iti_converged r /\
            (id_compl dt = true <-> constraints_imposed a) /\ id_L dt = L /\ (id_radius dt = None <-> ia_radius a = false))).
  Proof.
    intros md a rule det H. unfold iti_call in H. fold (iused md a) in H. cbv zeta in H.
    destruct (tm_bounds md) as [[lb ub]|] eqn:Eb; [|discriminate].
    destruct (iti_interp (ia_interp a)) as [k|] eqn:Ek; [|discriminate]. cbn [bind] in H.
    destruct (iti_initial _ _ _ _) as [c0|] eqn:Ec; [|discriminate]. cbn [bind] in H.
    destruct (first_pass _ _ _ _) as [e|]; [discriminate|].
    destruct (Nat.eqb_spec (ex_n (iused md a)) 0) as [|Hn]; [discriminate|].
    exists k, c0, lb, ub. split; [reflexivity|]. split; [apply interp_spec; assumption|]. split; [apply initial_spec; assumption|].
    destruct (Nat.eqb_spec (ia_maxit a) 0) as [E0|Hm].
    { destruct (ia_details a) eqn:Ed; [discriminate|]. injection H as <- <-. cbn [snapshot sr_exo_grid sr_endo_grid sr_process sr_interp sr_values].
      repeat (split; [reflexivity|]). split; [lia|]. left. repeat split; assumption. }
    destruct (Nat.eqb (Nat.max _ 1 * _ * _) 0) eqn:Ez; [discriminate|].
    match type of H with bind ?LL _ = _ => destruct LL as [[r L]|e] eqn:EL end; [|discriminate]. cbn [bind fst snd] in H.
    assert (G : rule = snapshot md (iused md a) k (iti_x r) /\ (det = None <-> ia_details a = false) /\
      forall dt, det = Some dt ->
        id_N dt = iti_N r /\ id_f_x dt = iti_f_x r /\ id_d_x dt = iti_d_x r /\ id_converged dt = iti_converged r /\
        (id_compl dt = true <-> constraints_imposed a) /\ id_L dt = L /\ (id_radius dt = None <-> ia_radius a = false)).
    { destruct (ia_details a).
      - destruct (ia_radius a).
        + destruct (eigs _ _) as [v|e]; [|discriminate]. cbn [bind] in H. injection H as <- <-. split; [reflexivity|].
          split; [split; discriminate|]. intros dt Hd. injection Hd as <-.
          cbn [id_N id_f_x id_d_x id_converged id_compl id_L id_radius]. repeat (split; [reflexivity|]).
          split; [apply wants_spec|]. split; [reflexivity|]. split; discriminate.
        + cbn [bind] in H. injection H as <- <-. split; [reflexivity|].
          split; [split; discriminate|]. intros dt Hd. injection Hd as <-.
          cbn [id_N id_f_x id_d_x id_converged id_compl id_L id_radius]. repeat (split; [reflexivity|]).
          split; [apply wants_spec|]. split; [reflexivity|]. split; reflexivity.
      - injection H as <- <-. split; [reflexivity|]. split; [split; reflexivity|]. intros dt Hd. discriminate. }
    destruct G as (-> & G1 & G2). cbn [snapshot sr_exo_grid sr_endo_grid sr_process sr_interp sr_values].
    repeat (split; [reflexivity|]). split; [lia|]. right. split; [lia|]. split; [reflexivity|].
    exists r, L. split; [exact EL|]. split; [reflexivity|]. split; assumption.
  Qed.

  (** The whole run, whatever the inversion. *)
  Lemma call_run : forall md a rule dt, call md a = Ok (rule, Some dt) ->
      exists k d c0 lb ub compl p tot J,
        tm_bounds md = Some (lb, ub) /\ iti_process_used md a d /\ interp_wanted a k /\ starts_at md a d c0 /\
        (compl = true <-> constraints_imposed a) /\
        sr_process rule = d /\ sr_interp rule = k /\
        let s := endo_nodes (tm_endo_grid md) in
        let n_x := length (tm_x0 md) in
        let n_m := Nat.max (ex_n d) 1 in
        let ip := rule_ijs spline spline_ms k (tm_exo_grid md) (tm_endo_grid md) d in
        let l := fun i n => lb (ex_node d i) (nth n s []) in
        let u := fun i n => ub (ex_node d i) (nth n s []) in
        let err := error_at (tm_g md) (tm_f md) d s n_x ip l u compl nan in
        let step := call_step (tm_g md) (tm_f md) d s n_x ip l u compl nan gmres (ia_tol a) (ia_smaxit a) (ia_invmethod a) in
        let pass := pass_by err (fun x t => exists J, step x = Ok (t, J)) (ia_maxbsteps a) in
        (id_N dt < ia_maxit a)%nat /\
        updates (fun x y => ia_tol a <= err x /\ pass x y) (id_N dt) c0 p /\
        id_f_x dt = err p /\ step p = Ok (tot, J) /\ id_d_x dt = tnorm n_m (length s) n_x tot /\
        id_L dt = op_apply (fun q i j S c => nth c (ip q i j S) 0) n_m (dp_n (ex_dp d) 0) n_x J
                    (fun i j n => nth n (next_states (tm_g md) d s n_x p i j) []) /\
        id_compl dt = compl /\
        (id_radius dt = None <-> ia_radius a = false) /\
        (id_converged dt = true -> sr_values rule = p /\ err p < ia_tol a) /\
        (id_converged dt = false -> S (id_N dt) = ia_maxit a /\ ia_tol a <= err p /\ pass p (sr_values rule)).
  Proof.
    intros md a rule dt H. apply call_inv in H.
    destruct H as (k & c0 & lb & ub & Eb & Ek & Ec & _ & _ & Ep & Ei & Hn & [(_ & _ & K & _)|(Hm & Hz & r & L & EL & Ev & _ & G)]); [discriminate|].
    destruct (G dt eq_refl) as (G1 & G2 & G3 & G4 & G5 & G6 & G7).
    apply call_loop_run in EL. destruct EL as (c & p & tot & J & A1 & A2 & A3 & A4 & A5 & A6 & A7 & A8 & A9).
    exists k, (iused md a), c0, lb, ub, (iti_wants_bounds a), p, tot, J.
    split; [assumption|]. split; [apply iused_spec|]. split; [assumption|]. split; [assumption|]. split; [apply wants_spec|].
    split; [assumption|]. split; [assumption|]. cbv zeta. rewrite G1, G2, G3, G4, G6, Ev. rewrite Nat.add_0_l in A2. rewrite A2.
    split; [assumption|]. split; [exact A3|]. split; [assumption|]. split; [exact A5|]. split; [assumption|].
    split; [exact A7|]. split.
    { destruct (id_compl dt), (iti_wants_bounds a) eqn:Ew; try reflexivity.
      - pose proof (proj1 G5 eq_refl) as Q. apply wants_spec in Q. congruence.
      - pose proof (proj2 G5 (proj1 (wants_spec a) Ew)). discriminate. }
    split; [assumption|]. split; [exact A8|exact A9].
  Qed.

  (** Without gmres, the solver of ImprovedTimeIteration.v. *)
  Lemma call_series : forall md a rule dt, call md a = Ok (rule, Some dt) -> ia_invmethod a <> "gmres"%string ->
      exists k d c0 lb ub compl r,
        tm_bounds md = Some (lb, ub) /\ iti_process_used md a d /\ interp_wanted a k /\ starts_at md a d c0 /\
        (compl = true <-> constraints_imposed a) /\
        improved_time_iteration (tm_g md) (tm_f md) d (endo_nodes (tm_endo_grid md)) (length (tm_x0 md))
          (rule_ijs spline spline_ms k (tm_exo_grid md) (tm_endo_grid md) d)
          (fun i n => lb (ex_node d i) (nth n (endo_nodes (tm_endo_grid md)) []))
          (fun i n => ub (ex_node d i) (nth n (endo_nodes (tm_endo_grid md)) [])) compl nan
          (ia_tol a) (ia_maxbsteps a) (ia_smaxit a) (ia_maxit a) c0 = Ok r /\
        sr_process rule = d /\ sr_interp rule = k /\ sr_values rule = iti_x r /\
        id_N dt = iti_N r /\ id_f_x dt = iti_f_x r /\ id_d_x dt = iti_d_x r /\ id_converged dt = iti_converged r.
  Proof.
    intros md a rule dt H Hinv. apply call_inv in H.
    destruct H as (k & c0 & lb & ub & Eb & Ek & Ec & _ & _ & Ep & Ei & Hn & [(_ & _ & K & _)|(Hm & Hz & r & L & EL & Ev & _ & G)]); [discriminate|].
    destruct (G dt eq_refl) as (G1 & G2 & G3 & G4 & G5 & G6 & G7).
    exists k, (iused md a), c0, lb, ub, (iti_wants_bounds a), r.
    split; [assumption|]. split; [apply iused_spec|]. split; [assumption|]. split; [assumption|]. split; [apply wants_spec|].
    split; [|repeat (split; [assumption|]); assumption].
    unfold improved_time_iteration. rewrite (proj2 (Nat.eqb_neq _ 0)) by lia. rewrite (proj2 (Nat.eqb_neq (ia_maxit a) 0)) by lia.
    rewrite Hz.
    match type of EL with call_loop ?g ?f ?e ?s ?n ?ip ?l ?u ?c ?na ?gm ?t ?mb ?sm ?iv ?fu ?it ?x = _ =>
      pose proof (call_loop_series g f e s n ip l u c na gm t mb sm iv fu it x Hinv) as F end.
    rewrite EL in F. exact F.
  Qed.

  (** Reported convergence, whatever the inversion. *)
  Lemma call_converged : forall md a rule dt, call md a = Ok (rule, Some dt) -> id_converged dt = true ->
      forall d, iti_process_used md a d ->
      (forall i, (i < ex_n d)%nat -> dp_n (ex_dp d) i = dp_n (ex_dp d) 0) ->
      exists k lb ub, interp_wanted a k /\ tm_bounds md = Some (lb, ub) /\ id_f_x dt < ia_tol a /\
      let s := endo_nodes (tm_endo_grid md) in
      let n_x := length (tm_x0 md) in
      let x := sr_values rule in
      forall i n c, (i < ex_n d)%nat -> (n < length s)%nat -> (c < n_x)%nat ->
        let e := euler (tm_g md) (tm_f md) (dp_n (ex_dp d) i) (dp_weight (ex_dp d) i) (dp_node (ex_dp d) i)
                   (rule_ijs spline spline_ms k (tm_exo_grid md) (tm_endo_grid md) d x i)
                   (ex_node d i) (nth n s []) (at_node n_x x i n) c in
        let l := lb (ex_node d i) (nth n s []) c in
        let u := ub (ex_node d i) (nth n s []) c in
        (~ constraints_imposed a -> Rabs e <= id_f_x dt) /\
        (constraints_imposed a -> l <> PInf -> u <> MInf -> ext_le l u -> mcp_approx (3 * ia_tol a) l u (x i n c) e).
  Proof.
    intros md a rule dt H Hc d Hd Hconst.
    destruct (call_run md a rule dt H) as (k & d' & c0 & lb & ub & compl & p & tot & J & Eb & Ed & Ek & Ec & Ew & Ep & Ei & R).
    cbv zeta in R. destruct R as (_ & _ & Ef & _ & _ & _ & _ & _ & Hcv & _).
    assert (d' = d). { destruct Hd as [K|[K K']], Ed as [Q|[Q Q']]; try congruence. } clear Ep. subst d'.
    destruct (Hcv Hc) as [Ex Hlt]. exists k, lb, ub. split; [assumption|]. split; [assumption|]. split; [lra|].
    cbv zeta. intros i n c Hi Hn Hk. rewrite Ex, Ef.
    pose proof (error_entry (tm_g md) (tm_f md) d (endo_nodes (tm_endo_grid md)) (length (tm_x0 md))
      (rule_ijs spline spline_ms k (tm_exo_grid md) (tm_endo_grid md) d)
      (fun i n => lb (ex_node d i) (nth n (endo_nodes (tm_endo_grid md)) []))
      (fun i n => ub (ex_node d i) (nth n (endo_nodes (tm_endo_grid md)) [])) compl nan Hconst p i n c Hi Hn Hk) as He.
    destruct compl.
    - split; [intros K; destruct K; apply Ew; reflexivity|]. intros _ H1 H2 H3.
      match type of He with context [iti_value ?a ?b ?c ?d] => destruct (iti_value a b c d) as [v|] eqn:Ev end.
      + cbn [orn] in He. apply (iti_value_approx _ _ _ _ v); try assumption. exact (Rle_lt_trans _ _ _ He Hlt).
      + exfalso. unfold iti_value in Ev.
        match type of Ev with context [iti_smooth ?rr (above ?x ?l)] =>
          destruct (iti_inner rr l x H1) as (h & E1 & _) end.
        rewrite E1 in Ev.
        match type of Ev with context [below ?u ?x] => destruct (iti_outer h u x H2) as (v & E2 & _) end. congruence.
    - split; [intros _; exact He|]. intros K. apply Ew in K. discriminate.
  Qed.

  (** No pass. *)
  Lemma call_no_pass : forall md a rule det, call md a = Ok (rule, det) -> ia_maxit a = 0%nat ->
      ia_details a = false /\ det = None /\ exists d, iti_process_used md a d /\ starts_at md a d (sr_values rule).
  Proof.
    intros md a rule det H H0. apply call_inv in H.
    destruct H as (k & c0 & lb & ub & Eb & Ek & Ec & _ & _ & Ep & Ei & Hn & [(_ & E1 & E2 & E3)|(Hm & _)]); [|lia].
    split; [assumption|]. split; [assumption|]. exists (iused md a). split; [apply iused_spec|]. rewrite E3. assumption.
  Qed.

  Lemma call_grids : forall md a rule det, call md a = Ok (rule, det) ->
      sr_exo_grid rule = tm_exo_grid md /\ sr_endo_grid rule = tm_endo_grid md.
  Proof.
    intros md a rule det H. apply call_inv in H. destruct H as (k & c0 & lb & ub & _ & _ & _ & E1 & E2 & _). split; assumption.
  Qed.

  (** What cannot be solved. *)
  Lemma call_no_bounds : forall md a, tm_bounds md = None -> call md a = Err ExcKey.
  Proof. intros md a H. unfold iti_call. rewrite H. reflexivity. Qed.

  Lemma call_other_start : forall md a, tm_bounds md <> None -> (exists k, interp_wanted a k) -> ia_dr0 a = StartOther ->
      call md a = Err ExcAttribute.
  Proof.
    intros md a Hb (k & Hk) Hs. unfold iti_call. destruct (tm_bounds md) as [[lb ub]|]; [|congruence].
    assert (Ek : iti_interp (ia_interp a) = Ok k).
    { unfold iti_interp. destruct Hk as [[-> ->]|[-> ->]]; reflexivity. }
    rewrite Ek, Hs. reflexivity.
  Qed.

  Lemma call_unread : forall md a m1 m2,
      let b := ItiArgs (ia_dr0 a) (ia_details a) (ia_ignore a) m1 (ia_process a) (ia_interp a) m2 (ia_maxbsteps a) (ia_tol a)
                 (ia_smaxit a) (ia_maxit a) (ia_radius a) (ia_invmethod a) (ia_compl a) in
      call md b = call md a.
  Proof. intros md a m1 m2. reflexivity. Qed.
End C.

(** The equation x = 2, from x = 0, one exogenous node and one point, no bounds imposed. *)
Definition two_model : ti_model :=
  TiModel (GUnstructured (Mat 1 1 (fun _ _ => 0))) (GNonUniform {| nu_axes := [[0]]; nu_nodes := Mat 1 1 (fun _ _ => 0) |})
          one_exo [0] (fun _ s _ _ => s) (eq_of (fun x => x - 2)) (Some (fun _ _ _ => MInf, fun _ _ _ => PInf)).
Definition two_args (inv : string) : iti_args :=
  ItiArgs NoStart true true "jac" None "cubic" 2 10 (1 / 1000) 5 5 false inv None.

Lemma two_run : forall spline spline_ms nan gmres eigs, exists rule dt,
    iti_call spline spline_ms nan gmres eigs two_model (two_args "iti") = Ok (rule, Some dt) /\
    id_converged dt = true /\ id_N dt = 1%nat /\ sr_values rule 0%nat 0%nat 0%nat = 2 /\ id_f_x dt = 0.
Proof.
  intros spline spline_ms nan gmres eigs.
  destruct (iti_small_run_any (rule_ijs spline spline_ms Cubic (tm_exo_grid two_model) (tm_endo_grid two_model) one_exo) (fun _ _ _ => MInf) (fun _ _ _ => PInf) nan) as (r & Er & E1 & E2 & E3 & E4).
  pose proof (call_loop_series (fun _ s _ _ => s) (eq_of (fun x => x - 2)) one_exo [[0]] 1
    (rule_ijs spline spline_ms Cubic (tm_exo_grid two_model) (tm_endo_grid two_model) one_exo)
    (fun _ _ _ => MInf) (fun _ _ _ => PInf) false nan gmres (1 / 1000) 10 5 "iti" 5 0 (fun _ _ c => nth c [0] 0) ltac:(discriminate)) as F.
  assert (Ez : (fun (_ _ : nat) (c : nat) => nth c [0] 0) = (fun _ _ _ => 0)).
  { do 2 (apply functional_extensionality; intro). apply functional_extensionality. intros [|[|c]]; reflexivity. }
  unfold improved_time_iteration in Er. cbn [one_exo ex_n Nat.eqb] in Er.
  change (Nat.eqb (Nat.max 1 1 * length [[0%R]] * 1) 0) with false in Er. cbv iota in Er.
  fold one_exo in Er.
  match type of F with match ?L with _ => _ end => destruct L as [[r' L0]|e] eqn:EL end.
  - assert (r' = r). { rewrite Ez in F.  rewrite Er in F. injection F as ->. reflexivity. }
    subst r'. exists (snapshot two_model one_exo Cubic (iti_x r)).
    eexists. split.
    + unfold iti_call. cbn [two_model tm_bounds two_args ia_process tm_process ia_interp ia_dr0 iti_initial bind iti_interp String.eqb Ascii.eqb Bool.eqb].
      cbn [first_pass tm_exo_grid tm_endo_grid]. cbn [one_exo ex_n Nat.eqb ia_maxit]. fold one_exo.
      change (tm_exo_grid two_model) with (GUnstructured (Mat 1 1 (fun _ _ => 0))) at 1. cbv iota.
      change (ia_maxit (two_args "iti") =? 0)%nat with false. cbv iota.
      change (Nat.max 1 1 * length (endo_nodes (tm_endo_grid two_model)) * length (tm_x0 two_model) =? 0)%nat with false. cbv iota.
      match goal with |- bind ?L _ = _ => change L with (call_loop (fun _ s _ _ => s) (eq_of (fun x => x - 2)) one_exo [[0]] 1
         (rule_ijs spline spline_ms Cubic (tm_exo_grid two_model) (tm_endo_grid two_model) one_exo)
         (fun _ _ _ => MInf) (fun _ _ _ => PInf) false nan gmres (1 / 1000) 10 5 "iti" 5 0 (fun _ _ c => nth c [0] 0)) end.
      rewrite EL. cbn [bind fst snd ia_details ia_radius]. reflexivity.
    + cbn [id_converged id_N id_f_x snapshot sr_values]. repeat split; assumption.
  - exfalso. rewrite Ez in F.  rewrite Er in F. discriminate F.
Qed.
