(** The options of [evaluate_policy]. *)
From Coq Require Import String Reals List Arith Bool Lia Lra.
From Verif.Base Require Import Prelude Arrays Sums Norms Ext.
From Verif.Spec Require Import Euler Bellman.
From Verif.Model Require Import Discretization Grids Distributions Processes DecisionRule TimeIteration TimeIterationCall
  ImprovedTimeIteration ValueIteration EvaluateCall.
From Verif.Spec Require Import EvaluateCall.
From Verif.Proofs Require Import TimeIterationProofs ImprovedTimeIterationProofs ValueIterationProofs.
Import ListNotations.
Open Scope R_scope.

Lemma filled_ok : forall n_ms (s : list (list R)) n e c, fill_controls n_ms (length s) n e = Ok c -> filled n_ms s n e c.
Proof.
  intros n_ms s n e. unfold fill_controls. generalize (fun _ _ _ : nat => 0) as a0.
  induction n_ms as [|m IH]; intros a0 c H; [intros i Hi; lia|]. cbn [for_range_res] in H.
  destruct (for_range_res m _ a0) as [b|] eqn:E; cbn [bind] in H; [|discriminate].
  specialize (IH a0 b E). destruct (e m) as [p|] eqn:Em; cbn [bind] in H; [|discriminate].
  intros i Hi. destruct (Nat.eq_dec i m) as [->|Hne].
  - exists p. split; [exact Em|]. destruct p as [r|rows].
    + destruct (Nat.eqb_spec (length r) n) as [L|]; [|discriminate]. injection H as <-. split; [exact L|].
      intros q k. rewrite Nat.eqb_refl. reflexivity.
    + destruct (Nat.eqb_spec (length rows) (length s)) as [L|]; [|discriminate].
      destruct (forallb _ rows) eqn:F; cbn [andb] in H; [|discriminate]. injection H as <-.
      split; [exact L|]. split.
      * intros r Hr. rewrite forallb_forall in F. apply Nat.eqb_eq. exact (F r Hr).
      * intros q k Hq. rewrite Nat.eqb_refl. reflexivity.
  - destruct (IH i ltac:(lia)) as (p' & Hp' & HC). exists p'. split; [exact Hp'|].
    assert (Hc : forall q k, c i q k = b i q k).
    { intros q k. destruct p as [r|rows].
      - destruct (Nat.eqb (length r) n); [|discriminate]. injection H as <-. destruct (Nat.eqb_spec i m); [contradiction|reflexivity].
      - destruct (andb _ _); [|discriminate]. injection H as <-. destruct (Nat.eqb_spec i m); [contradiction|reflexivity]. }
    destruct p' as [r|rows].
    + destruct HC as (A & B). split; [exact A|]. intros q k. rewrite Hc. apply B.
    + destruct HC as (A & A' & B). split; [exact A|]. split; [exact A'|]. intros q k Hq. rewrite Hc. apply B, Hq.
Qed.

Lemma value_start_rule : forall md a r, value_start md a = Ok r -> rule_for md a r.
Proof.
  intros md a r H. unfold value_start in H. destruct (ea_dr0 a) as [r0|] eqn:E.
  - injection H as <-. left. exact E.
  - right. split; [exact E|]. unfold interp_method in H.
    destruct (String.eqb_spec (ea_interp a) "cubic") as [E1|_].
    { cbn [bind] in H. injection H as <-. cbn. tauto. }
    destruct (String.eqb_spec (ea_interp a) "linear") as [E1|_].
    { cbn [bind] in H. injection H as <-. cbn. tauto. }
    destruct (String.eqb_spec (ea_interp a) "multilinear") as [E1|_].
    { cbn [bind] in H. injection H as <-. cbn. tauto. }
    destruct (String.eqb_spec (ea_interp a) "chebychev") as [E1|_]; cbn [bind] in H; [|discriminate].
    injection H as <-. cbn. tauto.
Qed.

Section Call.
  Variable spline : interp -> grid -> (nat -> nat -> R) -> list R -> list R.
  Variable spline_ms : interp -> grid -> grid -> tensor -> list R -> list R -> list R.
  Notation call := (evaluate_call spline spline_ms).

  Definition started (md : value_model) (a : ep_args) (r : value_rule) (v0 : list R) (v : tensor) : Prop :=
    match ea_dr0 a with
    | None => forall i n k, v i n k = nth k v0 0
    | Some _ => filled (ex_n (vm_process md)) (endo_nodes (vr_endo r)) (length v0)
                  (fun i => value_is spline spline_ms r i (endo_nodes (vr_endo r))) v
    end.

  Lemma started_ok : forall md a r v0 v, value_start md a = Ok r ->
    initial_values spline spline_ms (vm_process md) (endo_nodes (vr_endo r)) v0 a = Ok v -> started md a r v0 v.
  Proof.
    intros md a r v0 v Hr H. unfold initial_values in H. unfold started. unfold value_start in Hr.
    destruct (ea_dr0 a) as [r0|].
    - injection Hr as ->. apply filled_ok, H.
    - injection H as <-. reflexivity.
  Qed.

  Theorem call_run : forall md p a an, call md p a = Ok an -> passes a ->
    exists r v0 val e dr x vs q err d',
      rule_for md a r /\ vm_v0 md = Some v0 /\ vm_val md = Some val /\
      p = PolicyObject (Some e) (Some dr) /\
      (vr_process r = Some d' \/ vr_process r = None /\ is_cartesian (vr_exo r) = false) /\
      let s := endo_nodes (vr_endo r) in
      let d := vm_process md in
      let ip := rule_ijs spline spline_ms (vr_interp r) (vr_exo r) (vr_endo r) d' in
      filled (ex_n d) s (length (vm_x0 md)) (fun i => e i s) x /\
      started md a r v0 (vs 0%nat) /\
      successive (vm_g md) val d s (length (vm_x0 md)) (length v0) ip x dr vs /\
      an_rule an = ValueRule (vr_exo r) (vr_endo r) (vr_process r) (vr_interp r) (Some (vs q)) /\
      (an_is_dr0 an = true <-> ea_dr0 a <> None) /\
      an_details an = (if ea_details a then Some (S q, ea_tol a, err) else None) /\
      (q < ea_maxit a)%nat /\ ((S q < ea_maxit a)%nat -> err <= ea_tol a) /\
      distance_is (ex_n d) (length s) (length v0) (vs (S q)) (vs q) err /\
      (forall c, (c < q)%nat -> exists e, distance_is (ex_n d) (length s) (length v0) (vs (S c)) (vs c) e /\ ea_tol a < e).
  Proof.
    intros md p a an H (Pm & Pt). unfold evaluate_call in H. cbv zeta in H.
    destruct (vm_v0 md) as [v0|] eqn:Ev0; [|discriminate].
    destruct (value_start md a) as [r|] eqn:Er; cbn [bind] in H; [|discriminate].
    destruct (policy_controls _ _ _ p) as [x|] eqn:Ex; cbn [bind] in H; [|discriminate].
    destruct (initial_values _ _ _ _ v0 a) as [v|] eqn:Ev; cbn [bind] in H; [|discriminate].
    destruct (vm_val md) as [val|] eqn:Eval; [|discriminate].
    destruct (Nat.eqb_spec (ea_maxit a) 0); [lia|]. destruct (Rlt_dec (ea_tol a) 10); [|lra]. cbn [orb] in H.
    destruct (first_pass _ _ _ _); [discriminate|].
    destruct (policy_ijs p) as [dr|] eqn:Ep; [|discriminate].
    destruct p as [c|[e|] ijs]; cbn [policy_ijs] in Ep; [discriminate| |discriminate Ex]. subst ijs.
    cbn [policy_controls] in Ex.
    assert (Z : exists d', (vr_process r = Some d' \/ vr_process r = None /\ is_cartesian (vr_exo r) = false) /\
              exists ep, evaluate_policy (vm_g md) val (vm_process md) (endo_nodes (vr_endo r)) (length (vm_x0 md)) (length v0)
                (rule_ijs spline spline_ms (vr_interp r) (vr_exo r) (vr_endo r) d') x dr (ea_tol a) (ea_maxit a) v = Ok ep /\
              an = EpAnswer (ValueRule (vr_exo r) (vr_endo r) (vr_process r) (vr_interp r) (ep_values ep))
                     (match ea_dr0 a with Some _ => true | None => false end)
                     (if ea_details a then Some (ep_iterations ep, ea_tol a, ep_err ep) else None)).
    { destruct (is_cartesian (vr_exo r)) eqn:Ec; destruct (vr_process r) as [d'|] eqn:Ed; try discriminate.
      - exists d'. split; [left; reflexivity|]. destruct (evaluate_policy _ _ _ _ _ _ _ _ _ _ _ _) as [ep|]; cbn [bind] in H; [|discriminate].
        exists ep. split; [reflexivity|]. injection H as <-. reflexivity.
      - exists d'. split; [left; reflexivity|]. destruct (evaluate_policy _ _ _ _ _ _ _ _ _ _ _ _) as [ep|]; cbn [bind] in H; [|discriminate].
        exists ep. split; [reflexivity|]. injection H as <-. reflexivity.
      - exists (vm_process md). split; [right; auto|]. destruct (evaluate_policy _ _ _ _ _ _ _ _ _ _ _ _) as [ep|]; cbn [bind] in H; [|discriminate].
        exists ep. split; [reflexivity|]. injection H as <-. reflexivity. }
    destruct Z as (d' & HD & ep & Hep & ->).
    destruct (evaluate_policy_run _ _ _ _ _ _ _ _ _ _ _ _ _ Pt Pm Hep) as (q & Hq & Hit & Hv & Hd & Hc & Hend).
    set (U := fun v => update_value (vm_g md) val (vm_process md) (endo_nodes (vr_endo r)) (length (vm_x0 md)) (length v0) x v dr
                         (rule_ijs spline spline_ms (vr_interp r) (vr_exo r) (vr_endo r) d' v)) in *.
    exists r, v0, val, e, dr, x, (fun t => iterate U t v), q, (ep_err ep), d'. cbv zeta.
    split; [apply value_start_rule, Er|]. split; [reflexivity|]. split; [reflexivity|]. split; [reflexivity|]. split; [exact HD|].
    split; [apply filled_ok, Ex|]. split; [apply (started_ok md a r v0 v Er Ev)|]. split; [|split; [|split; [|split; [|split; [|split; [|split]]]]]].
    - intros t i m k Hi Hm Hk. rewrite iterate_S. unfold U at 1. rewrite update_value_value by assumption. reflexivity.
    - cbn [an_rule]. rewrite Hv. reflexivity.
    - cbn [an_is_dr0]. destruct (ea_dr0 a); split; intros A; try reflexivity; try discriminate; exfalso; apply A; reflexivity.
    - cbn [an_details]. rewrite Hit. reflexivity.
    - exact Hq.
    - exact Hend.
    - exact Hd.
    - exact Hc.
  Qed.

  (** No pass: the rule is returned as it was. *)
  Theorem call_no_pass : forall md p a an, call md p a = Ok an -> ~ passes a ->
    exists r, rule_for md a r /\ an_rule an = r /\ (an_is_dr0 an = true <-> ea_dr0 a <> None) /\
      an_details an = (if ea_details a then Some (0%nat, ea_tol a, 10) else None).
  Proof.
    intros md p a an H HP. unfold evaluate_call in H. cbv zeta in H.
    destruct (vm_v0 md) as [v0|]; [|discriminate].
    destruct (value_start md a) as [r|] eqn:Er; cbn [bind] in H; [|discriminate].
    destruct (policy_controls _ _ _ p) as [x|]; cbn [bind] in H; [|discriminate].
    destruct (initial_values _ _ _ _ v0 a) as [v|]; cbn [bind] in H; [|discriminate].
    destruct (vm_val md) as [val|]; [|discriminate].
    exists r. split; [apply value_start_rule, Er|].
    destruct (Nat.eqb_spec (ea_maxit a) 0) as [E|E]; cbn [orb] in H.
    - injection H as <-. cbn. split; [reflexivity|]. split; [|reflexivity].
      destruct (ea_dr0 a); split; intros A; try reflexivity; try discriminate; exfalso; apply A; reflexivity.
    - destruct (Rlt_dec (ea_tol a) 10) as [L|L]; [exfalso; apply HP; split; [lia|exact L]|].
      injection H as <-. cbn. split; [reflexivity|]. split; [|reflexivity].
      destruct (ea_dr0 a); split; intros A; try reflexivity; try discriminate; exfalso; apply A; reflexivity.
  Qed.

  (** Distance to the value of the policy. *)
  Theorem call_accuracy : forall g val (d : dexo) (s : list (list R)) n_x n_v ip x dr beta K,
    discounts n_v beta val ->
    interpolation_lipschitz (ex_n d) (dp_n (ex_dp d) 0) (length s) n_v K ip ->
    (forall i, (i < ex_n d)%nat -> probability (dp_n (ex_dp d) 0) (dp_weight (ex_dp d) i)) ->
    0 <= beta * K < 1 ->
    forall vs w q err, successive g val d s n_x n_v ip x dr vs -> successive g val d s n_x n_v ip x dr (fun _ => w) ->
      distance_is (ex_n d) (length s) n_v (vs (S q)) (vs q) err ->
      forall i n k, (i < ex_n d)%nat -> (n < length s)%nat -> (k < n_v)%nat ->
        Rabs (vs q i n k - w i n k) <= err / (1 - beta * K).
  Proof.
    intros g val d s n_x n_v ip x dr beta K Hval Hint Hw HbK vs w q err HS HW HD i n k Hi Hn Hk.
    assert (Hsz : (0 < ex_n d * length s * n_v)%nat) by (destruct (ex_n d), (length s), n_v; lia).
    set (U := fun v => update_value g val d s n_x n_v x v dr (ip v)).
    assert (HU : forall v i n k, (i < ex_n d)%nat -> (n < length s)%nat -> (k < n_v)%nat ->
       U v i n k = policy_value g val (dp_n (ex_dp d) 0) (dp_weight (ex_dp d) i) (dp_node (ex_dp d) i) (dr i) (ip v i)
                     (ex_node d i) (nth n s []) (at_node n_x x i n) (at_node n_v v i n) k).
    { intros v i' n' k' A B C. unfold U. apply update_value_value; assumption. }
    assert (FW : forall i n k, (i < ex_n d)%nat -> (n < length s)%nat -> (k < n_v)%nat -> U w i n k = w i n k).
    { intros i' n' k' A B C. rewrite HU by assumption. symmetry. apply (HW 0%nat); assumption. }
    pose proof (stored_error g val d s n_x n_v ip x dr beta K Hval Hint Hw w FW HbK Hsz (vs q)) as SE.
    cbv zeta in SE. fold U in SE.
    assert (E : tnorm (ex_n d) (length s) n_v (fun i n k => U (vs q) i n k - vs q i n k) = err).
    { apply (distance_unique (ex_n d) (length s) n_v (U (vs q)) (vs q)).
      - apply tnorm_distance, Hsz.
      - destruct HD as (D1 & i0 & n0 & k0 & A & B & C & D2). split.
        + intros i' n' k' A' B' C'. rewrite HU, <- (HS q) by assumption. apply D1; assumption.
        + exists i0, n0, k0. repeat (split; [assumption|]). rewrite HU, <- (HS q) by assumption. exact D2. }
    rewrite E in SE. eapply Rle_trans; [|exact SE].
    apply (tnorm_ge (ex_n d) (length s) n_v (fun i n k => vs q i n k - w i n k)); assumption.
  Qed.

  (** What cannot be evaluated. *)
  Theorem call_array : forall md c a an, passes a -> call md (PolicyArray c) a <> Ok an.
  Proof.
    intros md c a an P H. destruct (call_run md _ a an H P) as (r & v0 & val & e & dr & x & vs & q & err & d' & _ & _ & _ & E & _).
    discriminate E.
  Qed.

  Theorem call_without_method : forall md p a an, passes a -> call md p a = Ok an ->
    exists e dr, p = PolicyObject (Some e) (Some dr).
  Proof.
    intros md p a an P H. destruct (call_run md _ a an H P) as (r & v0 & val & e & dr & x & vs & q & err & d' & _ & _ & _ & E & _).
    exists e, dr. exact E.
  Qed.

  Theorem call_cartesian : forall md p a an, passes a -> ea_dr0 a = None -> is_cartesian (vm_exo_grid md) = true ->
    call md p a <> Ok an.
  Proof.
    intros md p a an P N C H. destruct (call_run md _ a an H P) as (r & v0 & val & e & dr & x & vs & q & err & d' & HR & _ & _ & _ & HD & _).
    destruct HR as [HR|(_ & HE & _ & HP & _)]; [congruence|]. rewrite HP in HD. destruct HD as [HD|(_ & HD)]; [discriminate|].
    rewrite HE in HD. congruence.
  Qed.

  Theorem call_unread : forall md p a grid verbose hook orders,
    call md p (EpArgs (ea_tol a) (ea_maxit a) grid verbose (ea_dr0 a) hook orders (ea_details a) (ea_interp a)) = call md p a.
  Proof. intros md p a grid verbose hook orders. reflexivity. Qed.

  Theorem call_interp_unread : forall md p a name, ea_dr0 a <> None ->
    call md p (EpArgs (ea_tol a) (ea_maxit a) (ea_grid a) (ea_verbose a) (ea_dr0 a) (ea_hook a) (ea_orders a) (ea_details a) name) = call md p a.
  Proof. intros md p a name H. unfold evaluate_call, value_start, initial_values. cbn. destruct (ea_dr0 a); [reflexivity|congruence]. Qed.

  Theorem call_needs : forall md p a an, call md p a = Ok an -> vm_v0 md <> None /\ vm_val md <> None.
  Proof.
    intros md p a an H. unfold evaluate_call in H. cbv zeta in H.
    destruct (vm_v0 md) as [v0|]; [|discriminate].
    destruct (value_start md a) as [r|] eqn:Er; cbn [bind] in H; [|discriminate].
    destruct (policy_controls _ _ _ p) as [x|]; cbn [bind] in H; [|discriminate].
    destruct (initial_values _ _ _ _ v0 a) as [v|]; cbn [bind] in H; [|discriminate].
    destruct (vm_val md) as [val|]; [|discriminate]. split; discriminate.
  Qed.

  (** The same model without values, or without value function. *)
  Lemma call_missing : forall md p a an, call md p a = Ok an ->
    call (ValueModel (vm_exo_grid md) (vm_endo_grid md) (vm_process md) (vm_x0 md) None (vm_g md) (vm_val md)) p a = Err ExcKey /\
    call (ValueModel (vm_exo_grid md) (vm_endo_grid md) (vm_process md) (vm_x0 md) (vm_v0 md) (vm_g md) None) p a = Err ExcKey.
  Proof.
    intros md p a an H. split; [reflexivity|]. unfold evaluate_call in *. cbv zeta in *. cbn [vm_v0 vm_process vm_x0 vm_val].
    destruct (vm_v0 md) as [v0|]; [|discriminate].
    replace (value_start _ a) with (value_start md a) by reflexivity.
    destruct (value_start md a) as [r|] eqn:Er; cbn [bind] in *; [|discriminate].
    destruct (policy_controls _ _ _ p) as [x|]; cbn [bind] in *; [|discriminate].
    destruct (initial_values _ _ _ _ v0 a) as [v|]; cbn [bind] in *; [reflexivity|discriminate].
  Qed.

  (** A rule that evaluates a model on a Cartesian grid must have its process: without it, the same call fails. *)
  Lemma call_without_process : forall md p a an r, call md p a = Ok an -> passes a -> ea_dr0 a = Some r -> is_cartesian (vr_exo r) = true ->
    call md p (EpArgs (ea_tol a) (ea_maxit a) (ea_grid a) (ea_verbose a)
      (Some (ValueRule (vr_exo r) (vr_endo r) None (vr_interp r) (vr_values r))) (ea_hook a) (ea_orders a) (ea_details a) (ea_interp a))
      = Err ExcAttribute.
  Proof.
    intros md p a an r H [P1 P2] Hr C. unfold evaluate_call, value_start, initial_values in *. rewrite Hr in H. cbv zeta in *.
    cbn [bind ea_dr0 vr_endo vr_exo vr_interp vr_values vr_process ea_maxit ea_tol].
    destruct (vm_v0 md) as [v0|]; [|discriminate]. cbn [bind] in H.
    destruct (policy_controls _ _ _ p) as [x|]; cbn [bind] in *; [|discriminate].
    change (fun i => value_is spline spline_ms (ValueRule (vr_exo r) (vr_endo r) None (vr_interp r) (vr_values r)) i (endo_nodes (vr_endo r)))
      with (fun i => value_is spline spline_ms r i (endo_nodes (vr_endo r))).
    destruct (fill_controls _ _ _ (fun i => value_is spline spline_ms r i (endo_nodes (vr_endo r)))) as [v|]; cbn [bind] in *; [|discriminate].
    destruct (vm_val md) as [val|]; [|discriminate].
    assert (E : (ea_maxit a =? 0) || (if Rlt_dec (ea_tol a) 10 then false else true) = false).
    { destruct (Nat.eqb_spec (ea_maxit a) 0) as [E|_]; [exfalso; lia|]. destruct (Rlt_dec (ea_tol a) 10); [reflexivity|contradiction]. }
    rewrite E in *. destruct (first_pass _ _ _ _); [discriminate H|]. destruct (policy_ijs p); [|discriminate H]. rewrite C. reflexivity.
  Qed.
End Call.

(** A rule given as a first guess is read at its own nodes: the values are those it holds. *)
Lemma filled_interpolates : forall spline spline_ms r n_ms n_v v c, interpolates spline spline_ms r n_ms n_v v ->
  filled n_ms (endo_nodes (vr_endo r)) n_v (fun i => value_is spline spline_ms r i (endo_nodes (vr_endo r))) c ->
  forall i n k, (i < n_ms)%nat -> (n < length (endo_nodes (vr_endo r)))%nat -> (k < n_v)%nat -> c i n k = v i n k.
Proof.
  intros spline spline_ms r n_ms n_v v c (Hv & He & HI) HF i n k Hi Hn Hk.
  destruct (HF i Hi) as (p & Ep & Hp). specialize (HI i n k Hi Hn Hk). unfold value_is in Ep. rewrite Hv in Ep.
  assert (N : forall f : list R -> list R, nth k (nth n (map f (endo_nodes (vr_endo r))) []) 0 = nth k (f (nth n (endo_nodes (vr_endo r)) [])) 0).
  { intros f. f_equal. rewrite (nth_indep _ [] (f [])) by (rewrite map_length; exact Hn). apply map_nth. }
  destruct (vr_exo r) as [] eqn:Ex; try congruence.
  all: try (injection Ep as <-; destruct Hp as (_ & _ & Hp); rewrite Hp, N by assumption; exact HI).
  all: match type of Ep with bind ?g _ = _ => destruct g as [m|] eqn:Em end; cbn [bind] in Ep; [|discriminate Ep];
    injection Ep as <-; destruct Hp as (_ & _ & Hp); rewrite Hp, N by assumption; apply HI; first [exact Em | reflexivity].
Qed.

Lemma call_warm : forall spline spline_ms md p a an r v v0, evaluate_call spline spline_ms md p a = Ok an -> passes a ->
  ea_dr0 a = Some r -> vm_v0 md = Some v0 -> interpolates spline spline_ms r (ex_n (vm_process md)) (length v0) v ->
  exists val dr x vs q d', vm_val md = Some val /\ policy_ijs p = Some dr /\
    (vr_process r = Some d' \/ vr_process r = None /\ is_cartesian (vr_exo r) = false) /\
    successive (vm_g md) val (vm_process md) (endo_nodes (vr_endo r)) (length (vm_x0 md)) (length v0)
      (rule_ijs spline spline_ms (vr_interp r) (vr_exo r) (vr_endo r) d') x dr vs /\
    (forall i n k, (i < ex_n (vm_process md))%nat -> (n < length (endo_nodes (vr_endo r)))%nat -> (k < length v0)%nat ->
       vs 0%nat i n k = v i n k) /\
    an_rule an = ValueRule (vr_exo r) (vr_endo r) (vr_process r) (vr_interp r) (Some (vs q)) /\ (q < ea_maxit a)%nat.
Proof.
  intros spline spline_ms md p a an r v v0 H P Hr H0 HI.
  destruct (call_run spline spline_ms _ _ _ _ H P)
    as (r' & w0 & val & e & dr & x & vs & q & err & d' & HR & E0 & E1 & Ep & Hd' & HF & HV & HU & Ha & _ & _ & Hq & _).
  rewrite H0 in E0. injection E0 as <-.
  assert (r' = r) as -> by (destruct HR as [HR|(HR & _)]; [rewrite Hr in HR; now injection HR | rewrite Hr in HR; discriminate HR]).
  exists val, dr, x, vs, q, d'. split; [exact E1|]. split; [rewrite Ep; reflexivity|]. split; [exact Hd'|]. split; [exact HU|].
  split; [|split; [exact Ha | exact Hq]].
  unfold started in HV. rewrite Hr in HV. exact (filled_interpolates _ _ _ _ _ _ _ HI HV).
Qed.

(** One node; the value of a control is itself, plus half of the value of tomorrow: the control 1 is worth 2. *)
Definition flat_spline (k : interp) (g : grid) (v : nat -> nat -> R) (s : list R) : list R := [v 0%nat 0%nat].
Definition flat_ms (k : interp) (g e : grid) (v : tensor) (m s : list R) : list R := [v 0%nat 0%nat 0%nat].
Definition flat_model : value_model :=
  ValueModel (GUnstructured (Mat 1 1 (fun _ _ => 0))) (GPoint [0]) one_exo [0] (Some [0]) (fun _ s _ _ => s) (Some tiny_val).
Definition flat_policy : policy := PolicyObject (Some (fun _ s => Ok (P2 (map (fun _ => [1]) s)))) (Some (fun _ _ _ => [1])).
Definition flat_dr0 : value_rule :=
  ValueRule (GUnstructured (Mat 1 1 (fun _ _ => 0))) (GPoint [0]) None Cubic (Some (fun _ _ _ => 4)).
Definition flat_args (dr0 : option value_rule) : ep_args :=
  EpArgs (1 / 1000) 2 [] false dr0 None None true "cubic".

Lemma flat_ok : forall dr0, dr0 = None \/ dr0 = Some flat_dr0 ->
  exists an, evaluate_call flat_spline flat_ms flat_model flat_policy (flat_args dr0) = Ok an.
Proof.
  intros dr0 H.
  destruct H as [-> | ->]; unfold evaluate_call; cbn - [ep_loop Rlt_dec];
    (destruct (Rlt_dec (1 / 1000) 10) as [_|N]; [|exfalso; apply N; lra]); eexists; reflexivity.
Qed.

Lemma flat_run : forall dr0 start, dr0 = None /\ start = 0 \/ dr0 = Some flat_dr0 /\ start = 4 ->
  exists an v, evaluate_call flat_spline flat_ms flat_model flat_policy (flat_args dr0) = Ok an /\
    passes (flat_args dr0) /\
    vr_values (an_rule an) = Some v /\ v 0%nat 0%nat 0%nat = 1 + start / 2 /\
    (an_is_dr0 an = true <-> dr0 <> None) /\ exists e, an_details an = Some (2%nat, 1 / 1000, e) /\ e = Rabs ((1 - start / 2) / 2).
Proof.
  intros dr0 start HS.
  assert (P : passes (flat_args dr0)) by (split; cbn; [lia|lra]).
  destruct (flat_ok dr0) as (an & Han); [tauto|].
  destruct (call_run flat_spline flat_ms _ _ _ _ Han P)
    as (r & v0 & val & e & dr & x & vs & q & err & d' & HR & E0 & E1 & Ep & _ & HF & HV & HU & Hr & Ho & Hd & Hq & Hl & HD & _).
  cbv zeta in HF. injection E0 as <-. injection E1 as <-. injection Ep as <- <-.
  assert (K : vr_exo r = GUnstructured (Mat 1 1 (fun _ _ => 0)) /\ vr_endo r = GPoint [0]).
  { destruct HR as [HR|(_ & K1 & K2 & _)]; [|split; assumption]. cbn [flat_args ea_dr0] in HR.
    destruct HS as [(-> & _)|(-> & _)]; [discriminate HR|]. injection HR as <-. split; reflexivity. }
  destruct K as (K1 & K2). rewrite K2 in HF, HU, HD. cbn [endo_nodes length] in HF, HU, HD.
  assert (Hx : x 0%nat 0%nat 0%nat = 1).
  { destruct (HF 0%nat ltac:(cbn; lia)) as (p & Ep & Hp). injection Ep as <-. destruct Hp as (_ & _ & Hp). rewrite Hp by (cbn; lia). reflexivity. }
  assert (H0 : vs 0%nat 0%nat 0%nat 0%nat = start).
  { unfold started in HV. cbn [flat_args ea_dr0] in HV. destruct HS as [(-> & ->)|(-> & ->)].
    - rewrite HV. reflexivity.
    - destruct HR as [HR|(HR & _)]; [|discriminate HR]. injection HR as <-.
      destruct (HV 0%nat ltac:(cbn; lia)) as (p & Ep & Hp). cbn in Ep. injection Ep as <-. destruct Hp as (_ & _ & Hp).
      rewrite Hp by (cbn; lia). reflexivity. }
  assert (HN : forall t, vs (S t) 0%nat 0%nat 0%nat = 1 + vs t 0%nat 0%nat 0%nat / 2).
  { intros t. rewrite HU by (cbn; lia). unfold policy_value, rule_ijs. rewrite K1. cbn. rewrite Hx. unfold tiny_val. cbn. lra. }
  assert (De : forall t e', distance_is 1 1 1 (vs (S t)) (vs t) e' -> e' = Rabs (vs (S t) 0%nat 0%nat 0%nat - vs t 0%nat 0%nat 0%nat)).
  { intros t e' (_ & i & n & k & A & B & C & D). assert (i = 0)%nat as -> by lia. assert (n = 0)%nat as -> by lia.
    assert (k = 0)%nat as -> by lia. symmetry. exact D. }
  cbn [flat_model vm_process one_exo ex_n length flat_args ea_maxit ea_tol ea_details] in HD, Hq, Hl, Hd.
  assert (q = 1%nat) as ->.
  { destruct q as [|[|q]]; [|reflexivity|lia]. specialize (Hl ltac:(lia)). apply De in HD. rewrite HN, H0 in HD.
    exfalso. destruct HS as [(_ & ->)|(_ & ->)]; unfold Rabs in HD; destruct (Rcase_abs _); lra. }
  exists an, (vs 1%nat). split; [exact Han|]. split; [exact P|]. rewrite Hr. split; [reflexivity|].
  split; [rewrite HN, H0; reflexivity|]. split; [exact Ho|]. exists err. split; [exact Hd|].
  apply De in HD. rewrite HD, !HN, H0. f_equal. field.
Qed.

(** Without [eval_ijs], or an array: the error. *)
Lemma flat_policy_errors : forall dr0, dr0 = None \/ dr0 = Some flat_dr0 ->
  evaluate_call flat_spline flat_ms flat_model (PolicyArray (fun _ _ _ => 1)) (flat_args dr0) = Err ExcAttribute /\
  evaluate_call flat_spline flat_ms flat_model (PolicyObject (Some (fun _ s => Ok (P2 (map (fun _ => [1]) s)))) None) (flat_args dr0)
    = Err ExcAttribute /\
  evaluate_call flat_spline flat_ms flat_model (PolicyObject None None) (flat_args dr0) = Err ExcAttribute.
Proof.
  intros dr0 H. split; [|split]; destruct H as [-> | ->]; unfold evaluate_call; cbn - [ep_loop Rlt_dec];
    try reflexivity; (destruct (Rlt_dec (1 / 1000) 10) as [_|N]; [|exfalso; apply N; lra]); reflexivity.
Qed.

Lemma flat_interpolates : interpolates flat_spline flat_ms flat_dr0 1 1 (fun _ _ _ => 4).
Proof.
  split; [reflexivity|]. split; [discriminate|]. intros i n k _ _ Hk. cbn. assert (k = 0)%nat as -> by lia. reflexivity.
Qed.

(** One exogenous value on a Cartesian grid. *)
Definition grid_dr0 : value_rule :=
  ValueRule (GUniform {| u_min := [0]; u_max := [0]; u_n := [1%nat]; u_nodes := Mat 1 1 (fun _ _ => 0) |}) (GPoint [0]) (Some one_exo)
    Linear (Some (fun _ _ _ => 4)).

Lemma grid_ok : exists an, evaluate_call flat_spline flat_ms flat_model flat_policy (flat_args (Some grid_dr0)) = Ok an.
Proof.
  unfold evaluate_call; cbn - [ep_loop Rlt_dec];
    (destruct (Rlt_dec (1 / 1000) 10) as [_|N]; [|exfalso; apply N; lra]); eexists; reflexivity.
Qed.
