(** The options of [egm]. *)
From Coq Require Import String Reals List Arith Bool Lia Lra.
From Verif.Base Require Import Prelude Arrays Sums Norms Ext.
From Verif.Spec Require Import Egm.
From Verif.Model Require Import Discretization Grids Distributions Processes DecisionRule TimeIteration TimeIterationCall Egm EgmCall.
From Verif.Spec Require Import EgmCall.
From Verif.Proofs Require Import TimeIterationProofs EgmProofs.
Import ListNotations.
Open Scope R_scope.

Lemma off_pages_spec : forall d, off_pages d = false <-> pages_known d.
Proof.
  intros d. unfold off_pages, pages_known. split.
  - intros H i j Hi Hj. destruct (Nat.ltb_spec (ex_n d) (dp_n (ex_dp d) i)) as [L|L]; [|lia].
    exfalso. rewrite <- Bool.not_true_iff_false in H. apply H. apply existsb_exists. exists i. split; [apply in_seq; lia|].
    apply Nat.ltb_lt. exact L.
  - intros H. apply Bool.not_true_iff_false. intros E. apply existsb_exists in E. destruct E as (i & Hi & E).
    apply in_seq in Hi. apply Nat.ltb_lt in E. specialize (H i (ex_n d) ltac:(lia) E). lia.
Qed.

Section Call.
  Variable el : (nat -> R) -> (nat -> R) -> R -> R.
  Variable nan : R.
  Notation call := (egm_call el nan).

  Definition run_on md f ag n_h d endo dr0 tol maxit :=
    egm d (em_iid md) (map (hd 0) (endo_nodes endo)) (fun p => nth p ag 0) (length ag) n_h
        (ef_h f) (ef_gt f) (ef_tau f) (ef_atau f) (ef_lb f) (ef_ub f) dr0 el nan true tol maxit.

  Lemma call_parts : forall md a an, call md a = Ok an ->
    exists exo endo d f dr0 ag n_h r,
      em_states md = 1%nat /\ em_controls md = 1%nat /\ egm_uses md a exo endo d /\ em_funs_of md = Ok f /\
      egm_first md a dr0 /\ ga_a_grid a = Some (1%nat, ag) /\ em_n_h md = Some n_h /\
      (em_iid md = true \/ pages_known d \/ (ga_maxit a <= 1)%nat \/ 1 < ga_tol a) /\
      run_on md f ag n_h d endo dr0 (ga_tol a) (ga_maxit a) = Ok r /\ first_pass Cubic exo endo d = None /\
      an = EgmAnswer (SolvedRule exo endo d Cubic (fun i n _ => egm_values r i n)) (egm_it r) d (egm_converged r) (ga_tol a) (egm_eta r).
  Proof.
    intros md a an H. unfold egm_call in H.
    destruct (Nat.eqb_spec (em_states md) 1) as [Es|]; cbn [negb] in H; [|discriminate].
    destruct (Nat.eqb_spec (em_controls md) 1) as [Ec|]; cbn [negb] in H; [|discriminate].
    assert (G : exists exo endo d, egm_uses md a exo endo d /\
       bind (em_funs_of md) (fun f =>
         let dr0 := match ga_dr0 a with Some r => r | None => fun _ _ => em_x0 md end in
         match ga_a_grid a with
         | None => Err (ExcGeneric "You must supply a grid for the post-states.")
         | Some (ndim, ag) =>
         if negb (Nat.eqb ndim 1) then Err ExcAssert else
         match em_n_h md with
         | None => Err ExcKey
         | Some n_h =>
         if andb (andb (negb (em_iid md)) (off_pages d))
              (andb (Nat.ltb 1 (ga_maxit a)) (if Rlt_dec 1 (ga_tol a) then false else true)) then Err ExcIndex else
         bind (run_on md f ag n_h d endo dr0 (ga_tol a) (ga_maxit a)) (fun r =>
         match first_pass Cubic exo endo d with
         | Some e => Err e
         | None => Ok (EgmAnswer (SolvedRule exo endo d Cubic (fun i n _ => egm_values r i n))
                        (egm_it r) d (egm_converged r) (ga_tol a) (egm_eta r))
         end)
         end end) = Ok an).
    { unfold egm_uses. destruct (ga_grid a) as [(x, e)|]; destruct (ga_dp a) as [d|]; cbn [bind] in H; try discriminate H.
      - exists x, e, d. split; [left; split; reflexivity|exact H].
      - destruct (em_funs_of md); discriminate H.
      - exists (em_exo_grid md), (em_endo_grid md), (em_process md). split; [right; repeat split|exact H]. }
    clear H. destruct G as (exo & endo & d & HU & H).
    destruct (em_funs_of md) as [f|] eqn:Ef; cbn [bind] in H; [|discriminate]. cbv zeta in H.
    destruct (ga_a_grid a) as [(ndim, ag)|] eqn:Ea; [|discriminate].
    destruct (Nat.eqb_spec ndim 1) as [->|]; cbn [negb] in H; [|discriminate].
    destruct (em_n_h md) as [n_h|] eqn:Eh; [|discriminate].
    destruct (andb (andb _ _) _) eqn:Eo; [discriminate|].
    destruct (run_on md f ag n_h d endo _ (ga_tol a) (ga_maxit a)) as [r|] eqn:Er; cbn [bind] in H; [|discriminate].
    destruct (first_pass Cubic exo endo d) eqn:Ep; [discriminate|]. injection H as <-.
    exists exo, endo, d, f, (match ga_dr0 a with Some r => r | None => fun _ _ => em_x0 md end), ag, n_h, r.
    split; [exact Es|]. split; [exact Ec|]. split; [exact HU|]. split; [reflexivity|]. split; [|split; [reflexivity|]; split; [reflexivity|]; split; [|split; [exact Er|]; split; [exact Ep|reflexivity]]].
    - unfold egm_first. destruct (ga_dr0 a); [left; reflexivity|right; split; reflexivity].
    - destruct (em_iid md); [left; reflexivity|]. right. cbn [negb andb] in Eo.
      destruct (off_pages d) eqn:Eop; [|left; apply off_pages_spec; exact Eop]. right. cbn [andb] in Eo.
      destruct (Nat.ltb_spec 1 (ga_maxit a)); [|left; lia]. cbn [andb] in Eo. destruct (Rlt_dec 1 (ga_tol a)); [right; assumption|discriminate].
  Qed.

  (** What is reported. *)
  Theorem call_report : forall md a an, call md a = Ok an ->
    exists exo endo d, egm_uses md a exo endo d /\ sr_exo_grid (ge_rule an) = exo /\ sr_endo_grid (ge_rule an) = endo /\
      sr_process (ge_rule an) = d /\ ge_dprocess an = d /\ sr_interp (ge_rule an) = Cubic /\ ge_tol an = ga_tol a /\
      (ge_iterations an < ga_maxit a)%nat /\ (ge_converged an = true <-> ge_err an < ga_tol a) /\
      (ge_converged an = false -> ge_iterations an = (ga_maxit a - 1)%nat).
  Proof.
    intros md a an H. destruct (call_parts md a an H) as (exo & endo & d & f & dr0 & ag & n_h & r & _ & _ & HU & _ & _ & _ & _ & _ & Hr & _ & ->).
    exists exo, endo, d. cbn. pose proof (egm_report _ _ _ _ _ _ _ _ _ _ _ _ _ _ _ _ _ _ Hr) as HR. tauto.
  Qed.

  (** A reported convergence. *)
  Theorem call_converged : forall md a an f ag, call md a = Ok an -> em_funs_of md = Ok f -> ga_a_grid a = Some (1%nat, ag) ->
    bounds_order f (ge_dprocess an) -> ga_tol a <= 1 -> ge_converged an = true ->
    let d := ge_dprocess an in
    let s := endo_nodes (sr_endo_grid (ge_rule an)) in
    exists n_h (X : nat -> R -> R) sa xa sa' xa' e1 e2, em_n_h md = Some n_h /\
      (forall i ss, let c := if em_iid md then 0%nat else i in
         projection (ef_lb f (ex_node d c) ss) (ef_ub f (ex_node d c) ss) (el (sa c) (xa c) ss) (X i ss)) /\
      (forall i n, (n < length s)%nat -> sr_values (ge_rule an) i n 0%nat = X i (hd 0 (nth n s []))) /\
      (forall i p, egm_response n_h (dp_n (ex_dp d) i) (dp_weight (ex_dp d) i) (dp_node (ex_dp d) i) X
                     (ef_h f) (ef_gt f) (ef_tau f) (ef_atau f) (ex_node d i) (nth p ag 0) (xa' i p) (sa' i p)) /\
      distance2_is (ex_n d) (length ag) xa' xa e1 /\ distance2_is (ex_n d) (length ag) sa' sa e2 /\ e1 + e2 < ga_tol a.
  Proof.
    intros md a an f ag H Ef Ea HB Ht HC.
    destruct (call_parts md a an H) as (exo & endo & d & f' & dr0 & ag' & n_h & r & _ & _ & _ & Ef' & _ & Ea' & Eh & _ & Hr & _ & ->).
    rewrite Ef in Ef'. injection Ef' as <-. rewrite Ea in Ea'. injection Ea' as <-. cbn in HB, HC |- *.
    destruct (egm_converges _ _ _ _ _ _ _ _ _ _ _ _ _ _ _ HB _ _ _ Hr Ht HC)
      as (_ & X & sa & xa & sa' & xa' & e1 & e2 & A & B & C & D & E & F).
    exists n_h, X, sa, xa, sa', xa', e1, e2. split; [exact Eh|]. split; [exact A|]. split; [|tauto].
    intros i n Hn. rewrite B. f_equal. rewrite (nth_indep _ 0 (hd 0 [])) by (rewrite map_length; exact Hn). apply map_nth.
  Qed.

  (** What a call needs. *)
  Theorem call_needs : forall md a an, call md a = Ok an ->
    em_states md = 1%nat /\ em_controls md = 1%nat /\ (exists f, em_funs_of md = Ok f) /\ em_n_h md <> None /\
    (exists ag, ga_a_grid a = Some (1%nat, ag)) /\ (0 < ga_maxit a)%nat /\ (ga_grid a = None <-> ga_dp a = None).
  Proof.
    intros md a an H. destruct (call_parts md a an H) as (exo & endo & d & f & dr0 & ag & n_h & r & Es & Ec & HU & Ef & _ & Ea & Eh & _ & Hr & _ & _).
    pose proof (egm_report _ _ _ _ _ _ _ _ _ _ _ _ _ _ _ _ _ _ Hr) as (HR & _).
    split; [exact Es|]. split; [exact Ec|]. split; [exists f; exact Ef|]. split; [congruence|]. split; [exists ag; exact Ea|]. split; [lia|].
    destruct HU as [(A & B)|(A & B & _)]; rewrite A, B; split; intros; [discriminate|discriminate|reflexivity|reflexivity].
  Qed.

  Theorem call_half_given : forall md a, em_states md = 1%nat -> em_controls md = 1%nat ->
    (forall d, ga_grid a = None -> ga_dp a = Some d -> call md a = Err ExcType) /\
    (forall g f, ga_grid a = Some g -> ga_dp a = None -> em_funs_of md = Ok f -> call md a = Err ExcAttribute).
  Proof.
    intros md a Es Ec. unfold egm_call. rewrite Es, Ec. cbn [Nat.eqb negb]. split.
    - intros d E1 E2. rewrite E1, E2. reflexivity.
    - intros (x, e) f E1 E2 E3. rewrite E1, E2, E3. reflexivity.
  Qed.

  Theorem call_unread : forall md a v d,
    call md (EgmArgs (ga_dr0 a) v d (ga_a_grid a) (ga_tol a) (ga_maxit a) (ga_grid a) (ga_dp a)) = call md a.
  Proof. reflexivity. Qed.

  (** A process that is not an instance of IIDProcess, with more integration nodes than nodes. *)
  Theorem call_product : forall md a exo endo d f ag n_h, egm_uses md a exo endo d -> em_states md = 1%nat -> em_controls md = 1%nat ->
    em_funs_of md = Ok f -> ga_a_grid a = Some (1%nat, ag) -> em_n_h md = Some n_h -> em_iid md = false -> ~ pages_known d ->
    (2 <= ga_maxit a)%nat -> ga_tol a <= 1 -> call md a = Err ExcIndex.
  Proof.
    intros md a exo endo d f ag n_h HU Es Ec Ef Ea Eh Ei Hp Hm Ht. unfold egm_call. rewrite Es, Ec. cbn [Nat.eqb negb].
    assert (Eo : off_pages d = true).
    { destruct (off_pages d) eqn:E; [reflexivity|]. exfalso. apply Hp, off_pages_spec, E. }
    destruct HU as [(E1 & E2)|(E1 & E2 & -> & -> & ->)]; rewrite E1, E2; cbn [bind]; rewrite Ef; cbn [bind]; rewrite Ea, Eh, Ei, Eo; cbn [Nat.eqb negb andb];
      (destruct (Nat.ltb_spec 1 (ga_maxit a)); [|lia]); cbn [andb]; destruct (Rlt_dec 1 (ga_tol a)); [lra|reflexivity|lra|reflexivity].
  Qed.

  Lemma is_iid_constant : forall exo s a N_a n_h h gt tau atau lb ub dr0 tol maxit r,
    egm exo true s a N_a n_h h gt tau atau lb ub dr0 el nan true tol maxit = Ok r -> tol <= 1 -> (2 <= maxit)%nat ->
    forall i n, egm_values r i n = egm_values r 0%nat n.
  Proof.
    intros exo s a N_a n_h h gt tau atau lb ub dr0 tol maxit r H Ht Hm.
    unfold egm in H. destruct (andb _ _); [discriminate|]. destruct maxit as [|[|m]]; [lia|lia|].
    cbn [egm_loop] in H. unfold egm_error in H at 1. cbn [Nat.ltb Nat.leb] in H.
    destruct (Rlt_dec 1 tol) as [L1|L1]; [lra|].
    revert H.
    assert (G : forall fuel it sa0 xa0, (1 <= it)%nat ->
       egm_loop exo true s a N_a n_h h gt tau atau lb ub dr0 el nan tol fuel it sa0 xa0 = Ok r ->
       forall i n, egm_values r i n = egm_values r 0%nat n).
    { induction fuel as [|fuel IH]; intros it sa0 xa0 Hit H; [discriminate|]. cbn [egm_loop] in H.
      destruct (Rlt_dec _ tol) as [L|L].
      - injection H as <-. intros i n. cbn. destruct it; [lia|]. reflexivity.
      - destruct fuel as [|fuel].
        + injection H as <-. intros i n. cbn. destruct it; [lia|]. reflexivity.
        + apply (IH (S it) _ _ ltac:(lia) H). }
    intros H. apply (G (S m) 1%nat _ _ (le_n 1) H).
  Qed.

  (** An i.i.d. model solved for a chain: the rule does not depend on the state of the chain. *)
  Theorem call_chain : forall md a an, call md a = Ok an -> em_iid md = true -> ga_tol a <= 1 -> (2 <= ga_maxit a)%nat ->
    forall i n k, sr_values (ge_rule an) i n k = sr_values (ge_rule an) 0%nat n k.
  Proof.
    intros md a an H Hi Ht Hm. destruct (call_parts md a an H) as (exo & endo & d & f & dr0 & ag & n_h & r & _ & _ & _ & _ & _ & _ & _ & _ & Hr & _ & ->).
    cbn. unfold run_on in Hr. rewrite Hi in Hr. intros i n _. exact (is_iid_constant _ _ _ _ _ _ _ _ _ _ _ _ _ _ _ Hr Ht Hm i n).
  Qed.

  (** A tolerance above 1: the first rule, flagged as converged. *)
  Theorem call_large_tol : forall md a an, call md a = Ok an -> 1 < ga_tol a ->
    exists dr0, egm_first md a dr0 /\ ge_converged an = true /\ ge_iterations an = 0%nat /\
      forall i n, (n < length (endo_nodes (sr_endo_grid (ge_rule an))))%nat ->
        sr_values (ge_rule an) i n 0%nat = dr0 i (hd 0 (nth n (endo_nodes (sr_endo_grid (ge_rule an))) [])).
  Proof.
    intros md a an H Ht. destruct (call_parts md a an H) as (exo & endo & d & f & dr0 & ag & n_h & r & _ & _ & _ & _ & HF & _ & _ & _ & Hr & _ & ->).
    exists dr0. split; [exact HF|]. cbn. unfold run_on, egm in Hr. destruct (andb _ _); [discriminate|].
    destruct (ga_maxit a) as [|m]; [discriminate|]. cbn [egm_loop] in Hr. unfold egm_error in Hr at 1. cbn [Nat.ltb Nat.leb] in Hr.
    destruct (Rlt_dec 1 (ga_tol a)); [|lra]. injection Hr as <-. cbn. split; [reflexivity|]. split; [reflexivity|].
    intros i n Hn. f_equal. rewrite (nth_indep _ 0 (hd 0 [])) by (rewrite map_length; exact Hn). apply map_nth.
  Qed.
End Call.

(** Two states 0 and 1; the control is the state. *)
Definition two_states : dexo :=
  {| ex_n := 2; ex_node := fun i => [INR i];
     ex_dp := {| dp_n := fun _ => 2%nat; dp_weight := fun _ _ => 1 / 2; dp_node := fun _ j => [INR j] |} |}.
Definition follow : egm_funs :=
  EgmFuns (fun _ _ X _ => X) (fun _ a _ => a) (fun m _ _ => hd 0 m) (fun _ a x => a + x) (fun _ _ => Fin 0) (fun _ _ => Fin 1).
Definition two_grid : grid := GUnstructured (Mat 2 1 (fun i _ => INR i)).
Definition egm_md (iid : bool) : egm_model :=
  EgmModel 1 1 iid GEmpty (GPoint [3]) one_exo (Ok follow) 0 (Some 1%nat).
Definition egm_two : egm_args :=
  EgmArgs None false true (Some (1%nat, [1; 2])) (1 / 1000000) 10 (Some (two_grid, GPoint [3])) (Some two_states).

Lemma two_chain_run : forall nan iid, exists an,
  egm_call (fun _ x _ => x 0%nat) nan (egm_md iid) egm_two = Ok an /\ ge_converged an = true /\ ge_iterations an = 2%nat /\
  ge_dprocess an = two_states /\ sr_values (ge_rule an) 1%nat 0%nat 0%nat = (if iid then 0 else 1) /\
  sr_values (ge_rule an) 0%nat 0%nat 0%nat = 0.
Proof.
  intros nan iid. unfold egm_call. cbn - [egm first_pass Rlt_dec]. rewrite andb_false_r. cbn [andb].
  unfold egm. cbn [ex_n two_states Nat.mul Nat.add Nat.eqb andb].
  set (f7 := 7%nat). change 10%nat with (S (S (S f7))). cbn [egm_loop].
  unfold egm_error at 1. cbn [Nat.ltb Nat.leb]. destruct (Rlt_dec 1 (1 / 1000000)) as [H|_]; [lra|].
  unfold egm_error at 1. cbn [Nat.ltb Nat.leb]. destruct (Rlt_dec 1 (1 / 1000000)) as [H|_]; [lra|].
  match goal with |- context [Rlt_dec ?E (1 / 1000000)] => assert (Q : E = 0) end.
  { unfold egm_error. cbn [Nat.ltb Nat.leb]. unfold egm_dist.
    rewrite !(proj2 (supnorm_zero_iff _ _)); [lra| |]; intros q Hq; unfold egm_sa, egm_xa, follow; cbn; lra. }
  rewrite Q. destruct (Rlt_dec 0 (1 / 1000000)) as [_|H]; [|lra]. cbn [bind].
  eexists. split; [reflexivity|]. split; [reflexivity|]. split; [reflexivity|]. split; [reflexivity|].
  cbn. unfold drfut, egm_xa, follow, egm_clamp. cbn.
  destruct iid; cbn; unfold Rmax, Rmin; repeat destruct (Rle_dec _ _); split; try reflexivity; lra.
Qed.

(** Shocks with two values, discretised: one node and two integration nodes. *)
Definition two_shocks : dexo :=
  {| ex_n := 1; ex_node := fun _ => [0];
     ex_dp := {| dp_n := fun _ => 2%nat; dp_weight := fun _ _ => 1 / 2; dp_node := fun _ j => [INR j] |} |}.
Lemma two_shocks_pages : ~ pages_known two_shocks.
Proof. intros H. specialize (H 0%nat 1%nat ltac:(cbn; lia) ltac:(cbn; lia)). cbn in H. lia. Qed.
Definition egm_shocks (iid : bool) : egm_model :=
  EgmModel 1 1 iid GEmpty (GPoint [3]) two_shocks (Ok follow) 0 (Some 1%nat).
Definition egm_plain (tol : R) : egm_args := EgmArgs None false true (Some (1%nat, [1; 2])) tol 10 None None.

Lemma shocks_run : forall el nan,
  egm_call el nan (egm_shocks false) (egm_plain (1 / 1000000)) = Err ExcIndex /\
  exists an, egm_call el nan (egm_shocks true) (egm_plain (1 / 1000000)) = Ok an /\ ge_converged an = true.
Proof.
  intros el nan. split.
  { apply (call_product el nan (egm_shocks false) (egm_plain (1 / 1000000)) GEmpty (GPoint [3]) two_shocks follow [1; 2] 1%nat); try reflexivity.
    - right. repeat split.
    - exact two_shocks_pages.
    - cbn. lia.
    - cbn. lra. }
  unfold egm_call. cbn - [egm first_pass Rlt_dec].
  unfold egm. cbn [ex_n two_shocks Nat.mul Nat.add Nat.eqb andb].
  set (f7 := 7%nat). change 10%nat with (S (S (S f7))). cbn [egm_loop].
  unfold egm_error at 1. cbn [Nat.ltb Nat.leb]. destruct (Rlt_dec 1 (1 / 1000000)) as [H|_]; [lra|].
  unfold egm_error at 1. cbn [Nat.ltb Nat.leb]. destruct (Rlt_dec 1 (1 / 1000000)) as [H|_]; [lra|].
  match goal with |- context [Rlt_dec ?E (1 / 1000000)] => assert (Q : E = 0) end.
  { unfold egm_error. cbn [Nat.ltb Nat.leb]. unfold egm_dist.
    rewrite !(proj2 (supnorm_zero_iff _ _)); [lra| |]; intros q Hq; unfold egm_sa, egm_xa, follow; cbn; lra. }
  rewrite Q. destruct (Rlt_dec 0 (1 / 1000000)) as [_|H]; [|lra]. cbn [bind]. eexists. split; reflexivity.
Qed.
