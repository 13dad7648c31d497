(** Calls that are refused: Taylor expansions, multitake, bounds of controls, rules, responses, egm, ergodic laws. *)
From Coq Require Import String Reals List Arith Bool Lia Lra.
From Verif.Base Require Import Prelude Ext Sums Arrays Nda Dict.
From Verif.Model Require Import DecisionRule Taylor Tensor ModelObject Processes Egm Ergodic Discretization Grids TimeIteration.
Import ListNotations.
Open Scope R_scope.

Lemma shape_is_spec : forall c sh, shape_is c sh = true <-> shape c = sh.
Proof. intros c sh. unfold shape_is. destruct (list_eq_dec Nat.eq_dec (shape c) sh); split; congruence. Qed.

Lemma te_eval_outcomes :
  forall t p,
    ((exists o, te_eval1 t p = Ok o) <->
     length p = length (te_s t) /\ (1 <= length (te_coefs t) <= 3)%nat /\
     (forall k c, nth_error (te_coefs t) k = Some c ->
        shape c = length (te_x t) :: repeat (length (te_s t)) (S k))) /\
    (forall e, te_eval1 t p = Err e -> e = ExcValue).
Proof.
  intros [s x cs] p. unfold te_eval1. cbn [te_s te_x te_coefs].
  destruct (Nat.eqb_spec (length p) (length s)) as [E|E]; cbn [negb].
  2:{ split; [split|].
      - intros [o Ho]; discriminate.
      - intros [H _]; contradiction.
      - intros e H; injection H; auto. }
  destruct cs as [|x1 [|x2 [|x3 [|x4 r]]]].
  - split; [split|]; [intros [o Ho]; discriminate | intros [_ [H _]]; cbn in H; lia | intros e H; injection H; auto].
  - destruct (shape_is x1 [length x; length s]) eqn:E1.
    + apply shape_is_spec in E1. split; [split|].
      * intros _. split; [exact E|]. split; [cbn; lia|]. intros [|k] c H; cbn in H; [injection H as <-; exact E1|].
        destruct k; discriminate.
      * intros _. eexists; reflexivity.
      * discriminate.
    + split; [split|].
      * intros [o Ho]; discriminate.
      * intros [_ [_ H]]. specialize (H 0%nat x1 eq_refl). apply shape_is_spec in H. cbn [repeat] in H. congruence.
      * intros e H; injection H; auto.
  - destruct (shape_is x1 [length x; length s] && shape_is x2 [length x; length s; length s]) eqn:E1.
    + apply andb_prop in E1. destruct E1 as [E1 E2]. apply shape_is_spec in E1, E2. split; [split|].
      * intros _. split; [exact E|]. split; [cbn; lia|].
        intros [|[|k]] c H; cbn in H; [injection H as <-; exact E1|injection H as <-; exact E2|].
        destruct k; discriminate.
      * intros _. eexists; reflexivity.
      * discriminate.
    + split; [split|].
      * intros [o Ho]; discriminate.
      * intros [_ [_ H]]. pose proof (H 0%nat x1 eq_refl) as H1. pose proof (H 1%nat x2 eq_refl) as H2.
        apply shape_is_spec in H1, H2. cbn [repeat] in *. rewrite H1, H2 in E1. discriminate.
      * intros e H; injection H; auto.
  - destruct (shape_is x1 [length x; length s] && shape_is x2 [length x; length s; length s]
              && shape_is x3 [length x; length s; length s; length s]) eqn:E1.
    + apply andb_prop in E1. destruct E1 as [E1 E3]. apply andb_prop in E1. destruct E1 as [E1 E2].
      apply shape_is_spec in E1, E2, E3. split; [split|].
      * intros _. split; [exact E|]. split; [cbn; lia|].
        intros [|[|[|k]]] c H; cbn in H;
          [injection H as <-; exact E1|injection H as <-; exact E2|injection H as <-; exact E3|].
        destruct k; discriminate.
      * intros _. eexists; reflexivity.
      * discriminate.
    + split; [split|].
      * intros [o Ho]; discriminate.
      * intros [_ [_ H]]. pose proof (H 0%nat x1 eq_refl) as H1. pose proof (H 1%nat x2 eq_refl) as H2.
        pose proof (H 2%nat x3 eq_refl) as H3.
        apply shape_is_spec in H1, H2, H3. cbn [repeat] in *. rewrite H1, H2, H3 in E1. discriminate.
      * intros e H; injection H; auto.
  - split; [split|]; [intros [o Ho]; discriminate | intros [_ [H _]]; cbn in H; lia | intros e H; injection H; auto].
Qed.

Lemma map_res_pick : forall ind cs,
  ((exists o, map_res (pick ind) cs = Ok o) <->
   (forall c, In c cs -> exists d sh, shape c = d :: sh /\ forall i, In i ind -> (i < d)%nat)) /\
  (forall e, map_res (pick ind) cs = Err e -> e = ExcIndex) /\
  (forall o, map_res (pick ind) cs = Ok o -> length o = length cs).
Proof.
  intros ind cs. induction cs as [|c cs [IH1 [IH2 IH3]]].
  - split; [split|split]; [intros _ c []|intros _; eexists; reflexivity|discriminate|intros o H; injection H as <-; reflexivity].
  - cbn [map_res]. destruct (shape c) as [|d sh] eqn:E;
      [replace (pick ind c) with (@Err nda ExcIndex) by (unfold pick; rewrite E; reflexivity)|].
    + cbn [bind]. split; [split|split].
      * intros [o Ho]; discriminate.
      * intros H. destruct (H c (or_introl eq_refl)) as [d [sh [H' _]]]. congruence.
      * intros e H; injection H; auto.
      * discriminate.
    + destruct (forallb (fun i => Nat.ltb i d) ind) eqn:F;
        [assert (P : exists y, pick ind c = Ok y) by (unfold pick; rewrite E, F; eexists; reflexivity);
         destruct P as [y ->]
        |replace (pick ind c) with (@Err nda ExcIndex) by (unfold pick; rewrite E, F; reflexivity)]; cbn [bind].
      * assert (F' : forall i, In i ind -> (i < d)%nat).
        { intros i Hi. rewrite forallb_forall in F. apply Nat.ltb_lt. exact (F i Hi). }
        destruct (map_res (pick ind) cs) as [o|e] eqn:M; cbn [bind].
        -- split; [split|split].
           ++ intros _ c' [<-|H]; [exists d, sh; auto|]. apply IH1; [eexists; reflexivity|exact H].
           ++ intros _. eexists; reflexivity.
           ++ discriminate.
           ++ intros o' H. injection H as <-. cbn. f_equal. apply IH3. reflexivity.
        -- split; [split|split].
           ++ intros [o Ho]; discriminate.
           ++ intros H. destruct (proj2 IH1) as [o Ho]; [|discriminate].
              intros c' H'. apply H. right; exact H'.
           ++ intros e' H. injection H as <-. apply IH2; reflexivity.
           ++ discriminate.
      * split; [split|split].
        -- intros [o Ho]; discriminate.
        -- intros H. destruct (H c (or_introl eq_refl)) as [d' [sh' [H' H'']]]. rewrite E in H'. injection H' as <- <-.
           exfalso. enough (forallb (fun i => Nat.ltb i d) ind = true) by congruence.
           apply forallb_forall. intros i Hi. apply Nat.ltb_lt. exact (H'' i Hi).
        -- intros e H; injection H; auto.
        -- discriminate.
Qed.

Lemma te_getitem_outcomes :
  forall t ind, (1 <= length (te_coefs t) <= 3)%nat -> ind <> [] ->
    ((exists t', te_getitem t ind = Ok t') <->
     forall i, In i ind -> (i < length (te_x t))%nat /\
       forall c, In c (te_coefs t) -> exists d sh, shape c = d :: sh /\ (i < d)%nat).
Proof.
  intros [s x cs] ind HL HN. cbn [te_coefs te_x] in *. destruct ind as [|i0 ind0]; [contradiction|]. clear HN.
  remember (i0 :: ind0) as ind eqn:HI. assert (I0 : In i0 ind) by (rewrite HI; left; reflexivity). unfold te_getitem. cbn [te_s te_x te_coefs].
  destruct (map_res_pick ind cs) as [M1 [M2 M3]].
  destruct (forallb (fun i => Nat.ltb i (length x)) ind) eqn:F.
  - assert (F' : forall i, In i ind -> (i < length x)%nat).
    { intros i Hi. rewrite forallb_forall in F. apply Nat.ltb_lt. exact (F i Hi). }
    destruct (map_res (pick ind) cs) as [o|e] eqn:M; cbn [bind].
    + split.
      * intros _ i Hi. split; [exact (F' i Hi)|]. intros c Hc.
        destruct (proj1 M1 (ex_intro _ o eq_refl) c Hc) as [d [sh [H1 H2]]]. exists d, sh. split; [exact H1|exact (H2 i Hi)].
      * intros _. specialize (M3 o eq_refl). unfold te_make. rewrite M3.
        destruct (length cs) as [|[|[|[|k]]]]; try lia; eexists; reflexivity.
    + split.
      * intros [o Ho]; discriminate.
      * intros H. destruct (proj2 M1) as [o Ho]; [|discriminate]. intros c Hc.
        destruct (proj2 (H i0 I0) c Hc) as [d [sh [H1 _]]].
        exists d, sh. split; [exact H1|]. intros i Hi. destruct (proj2 (H i Hi) c Hc) as [d' [sh' [H1' H2']]].
        rewrite H1 in H1'. injection H1' as <- <-. exact H2'.
  - split.
    + intros [o Ho]; discriminate.
    + intros H. exfalso. enough (forallb (fun i => Nat.ltb i (length x)) ind = true) by congruence.
      apply forallb_forall. intros i Hi. apply Nat.ltb_lt. exact (proj1 (H i Hi)).
Qed.

Lemma te_getitem_error :
  forall t ind e, (1 <= length (te_coefs t) <= 3)%nat -> te_getitem t ind = Err e -> e = ExcIndex.
Proof.
  intros [s x cs] ind e HL. unfold te_getitem. cbn [te_s te_x te_coefs] in *.
  destruct (map_res_pick ind cs) as [M1 [M2 M3]].
  destruct (forallb (fun i => Nat.ltb i (length x)) ind); [|intros H; injection H; auto].
  destruct (map_res (pick ind) cs) as [o|e'] eqn:M; cbn [bind].
  - specialize (M3 o eq_refl). unfold te_make. rewrite M3.
    destruct (length cs) as [|[|[|[|k]]]]; try lia; discriminate.
  - intros H; injection H as <-. apply M2; reflexivity.
Qed.

Lemma multitake_axes : forall inds axes a, (length axes < length inds)%nat -> forall a', multitake a inds axes <> Ok a'.
Proof.
  induction inds as [|ind inds IH]; intros axes a HL a'; [cbn in HL; lia|].
  cbn [multitake]. destruct axes as [|ax axes]; [discriminate|].
  destruct (take a ind ax) as [b|e]; cbn [bind]; [|discriminate]. apply IH. cbn in HL. lia.
Qed.

Lemma multitake_enough : forall inds axes a, (length inds <= length axes)%nat ->
  (forall b k, (k < length inds)%nat -> exists b', take b (nth k inds []) (nth k axes 0%nat) = Ok b') ->
  exists a', multitake a inds axes = Ok a'.
Proof.
  induction inds as [|ind inds IH]; intros axes a HL H; [eexists; reflexivity|].
  destruct axes as [|ax axes]; [cbn in HL; lia|]. cbn [multitake].
  destruct (H a 0%nat ltac:(cbn; lia)) as [b Hb]. cbn in Hb. rewrite Hb. cbn [bind].
  apply IH; [cbn in HL; lia|]. intros c k Hk. apply (H c (S k)). cbn; lia.
Qed.

Lemma x_bounds_outcomes : forall (F : Type) (fs : dict F),
  let has k := exists f, dget fs k = Some f in
  ((exists ab, x_bounds fs = Ok (Some ab)) <->
     has "controls_ub"%string /\ has "controls_lb"%string \/
     ~ has "controls_ub"%string /\ has "arbitrage_ub"%string /\ has "arbitrage_lb"%string) /\
  (x_bounds fs = Ok None <-> ~ has "controls_ub"%string /\ ~ has "arbitrage_ub"%string) /\
  (forall e, x_bounds fs = Err e -> e = ExcKey).
Proof.
  intros F fs has. unfold x_bounds, dmem, has. clear has.
  destruct (dget fs "controls_ub") eqn:A; destruct (dget fs "controls_lb") eqn:B;
  destruct (dget fs "arbitrage_ub") eqn:C; destruct (dget fs "arbitrage_lb") eqn:D; cbn [bind];
  (split; [split|split; [split|]]); intros; repeat match goal with
    | H : exists _, _ |- _ => destruct H
    | H : _ /\ _ |- _ => destruct H
    | H : _ \/ _ |- _ => destruct H
    | H : ~ (exists f, Some _ = Some f) |- _ => exfalso; apply H; eexists; reflexivity
    end; try discriminate; try congruence; try (eexists; reflexivity);
  try (left; split; eexists; reflexivity);
  try (right; split; [intros [? ?]; discriminate | split; eexists; reflexivity]);
  try (split; intros [? ?]; discriminate).
Qed.

Lemma ar1_response_outcomes : forall rho sigma mu T impulse,
  (T = 0%nat -> ar1_response rho sigma mu T impulse = Err ExcIndex) /\
  (T = 1%nat -> ar1_response rho sigma mu T impulse = Err ExcType) /\
  ((2 <= T)%nat -> ar1_response rho sigma mu T impulse = Err ExcValue).
Proof.
  intros rho sigma mu T impulse. unfold ar1_response, ar_response.
  split; [|split]; intros H.
  - rewrite H; reflexivity.
  - rewrite H; reflexivity.
  - destruct T as [|[|T]]; try lia. clear H.
    match goal with |- bind (for_range_res _ ?b ?i) _ = _ => set (body := b); set (ini := i) end.
    assert (E : forall n, for_range_res (S n) body ini = Err ExcValue).
    { induction n as [|n IH].
      - reflexivity.
      - change (for_range_res (S (S n)) body ini) with (bind (for_range_res (S n) body ini) (fun a => body (S n) a)).
        rewrite IH. reflexivity. }
    rewrite E. reflexivity.
Qed.

Lemma var1_response_refused : forall p T impulse,
  (T = 0%nat -> var1_response p T impulse = Err ExcIndex) /\
  ((2 <= T)%nat -> ncol (v_rho p) <> nrow (v_Sigma p) -> var1_response p T impulse = Err ExcValue) /\
  ((1 <= T)%nat -> (T = 1%nat \/ ncol (v_rho p) = nrow (v_Sigma p)) -> exists irf, var1_response p T impulse = Ok irf).
Proof.
  intros p T impulse. unfold var1_response, ar_response.
  split; [|split]; intros H.
  - rewrite H; reflexivity.
  - intros HN. destruct T as [|[|T]]; try lia. clear H.
    match goal with |- bind (for_range_res _ ?b ?i) _ = _ => set (body := b); set (ini := i) end.
    assert (E : forall n, for_range_res (S n) body ini = Err ExcValue).
    { induction n as [|n IH].
      - cbn [for_range_res bind]. unfold body, py_matmul. rewrite (proj2 (Nat.eqb_neq _ _) HN). reflexivity.
      - change (for_range_res (S (S n)) body ini) with (bind (for_range_res (S n) body ini) (body (S n))).
        rewrite IH. reflexivity. }
    rewrite E. reflexivity.
  - intros HE. destruct T as [|T]; [lia|]. clear H.
    match goal with |- exists _, bind (for_range_res _ ?b ?i) _ = _ => set (body := b); set (ini := i) end.
    assert (E : exists r, for_range_res T body ini = Ok r).
    { destruct HE as [HE|HE]; [injection HE as ->; eexists; reflexivity|].
      clear -HE. induction T as [|T [r IH]]; [eexists; reflexivity|].
      cbn [for_range_res]. rewrite IH. cbn [bind]. unfold body, py_matmul. rewrite HE, Nat.eqb_refl. eexists; reflexivity. }
    destruct E as [r E]. rewrite E. eexists; reflexivity.
Qed.

Section Calls.
  Variable ev_s : list (list R) -> res (list (list R)).
  Variable ev_is : index -> list (list R) -> res (list (list R)).
  Variable ev_ms : list (list R) -> list (list R) -> res (list (list R)).

  Lemma call1_empty : forall p,
    (ev_s [p] = Ok [] -> call1 ev_s (P1 p) = Err ExcIndex) /\
    (forall r l, ev_s [p] = Ok (r :: l) -> call1 ev_s (P1 p) = Ok (P1 r)).
  Proof. intros p. cbn [call1]. split; [intros ->|intros r l ->]; reflexivity. Qed.

  Lemma call2_empty : forall a p,
    let out := match a with Idx i => ev_is i [p] | Pts (P1 m) => ev_ms [m] [p] | Pts (P2 m) => ev_ms m [p] end in
    (forall rows, a <> Pts (P2 rows)) ->
    (out = Ok [] -> call2 ev_is ev_ms a (P1 p) = Err ExcIndex) /\
    (forall r l, out = Ok (r :: l) -> call2 ev_is ev_ms a (P1 p) = Ok (P1 r)).
  Proof.
    intros a p out HN. unfold out. destruct a as [i|[m|m]]; [| |destruct (HN m eq_refl)]; cbn [call2];
      (split; [intros ->|intros r l ->]; reflexivity).
  Qed.
End Calls.

Lemma egm_loop_runs : forall exo is_iid s a N_a n_h h gt tau atau lb ub dr0 el nan tol fuel it sa0 xa0,
  exists r, egm_loop exo is_iid s a N_a n_h h gt tau atau lb ub dr0 el nan tol (S fuel) it sa0 xa0 = Ok r.
Proof.
  intros until fuel. induction fuel as [|fuel IH]; intros it sa0 xa0; cbn [egm_loop];
    match goal with |- context [Rlt_dec ?u ?v] => destruct (Rlt_dec u v) end; try (eexists; reflexivity).
  apply IH.
Qed.

Lemma egm_outcomes : forall exo (is_iid : bool) s a N_a n_h h gt tau atau lb ub dr0 el nan tol maxit,
  let run := egm exo is_iid s a N_a n_h h gt tau atau lb ub dr0 el nan true tol maxit in
  ((exists r, run = Ok r) <-> (1 <= maxit)%nat /\ ((0 < ex_n exo * N_a)%nat \/ (maxit <= 2)%nat \/ 1 < tol)) /\
  ((1 <= maxit)%nat -> forall e, run = Err e -> e = ExcValue).
Proof.
  intros. unfold run, egm.
  destruct (Nat.eqb_spec (ex_n exo * N_a) 0) as [E|E]; cbn [andb].
  - destruct (Nat.ltb_spec 2 maxit) as [L|L]; cbn [andb].
    + destruct (Rlt_dec 1 tol) as [T|T].
      * destruct maxit as [|m]; [lia|].
        destruct (egm_loop_runs exo is_iid s a N_a n_h h gt tau atau lb ub dr0 el nan tol m 0 (fun _ _ => 0) (fun _ _ => 0)) as [r Hr].
        rewrite Hr. split; [split|]; [intros _; split; [lia|auto]|intros _; eexists; reflexivity|discriminate].
      * split; [split|].
        -- intros [r Hr]; discriminate.
        -- intros [_ [H|[H|H]]]; [lia|lia|contradiction].
        -- intros _ e H; injection H; auto.
    + destruct maxit as [|m].
      * split; [split|]; [intros [r Hr]; discriminate|lia|lia].
      * destruct (egm_loop_runs exo is_iid s a N_a n_h h gt tau atau lb ub dr0 el nan tol m 0 (fun _ _ => 0) (fun _ _ => 0)) as [r Hr].
        rewrite Hr. split; [split|]; [intros _; split; [lia|right; left; lia]|intros _; eexists; reflexivity|discriminate].
  - destruct maxit as [|m].
    + split; [split|]; [intros [r Hr]; discriminate|lia|lia].
    + destruct (egm_loop_runs exo is_iid s a N_a n_h h gt tau atau lb ub dr0 el nan tol m 0 (fun _ _ => 0) (fun _ _ => 0)) as [r Hr].
      rewrite Hr. split; [split|]; [intros _; split; [lia|left; lia]|intros _; eexists; reflexivity|discriminate].
Qed.

Lemma ergodic_no_node : forall g solve N_m exo dr grid dp Pi,
  ergodic_matrix g N_m exo dr grid dp = Ok Pi ->
  let N := (N_m * nrow (u_nodes grid))%nat in
  (N = 0%nat -> ergodic_distribution g solve N_m exo dr grid dp = Err ExcIndex) /\
  ((0 < N)%nat -> forall mu, ergodic_distribution g solve N_m exo dr grid dp = Ok (Pi, mu) <->
     solve N (fun i j => if Nat.eqb i (N - 1) then 1 else mget Pi j i - (if Nat.eqb i j then 1 else 0))
           (fun i => if Nat.eqb i (N - 1) then 1 else 0) = Ok mu).
Proof.
  intros g solve N_m exo dr grid dp Pi H N. unfold ergodic_distribution. rewrite H. cbn [bind]. fold N. split.
  - intros ->. reflexivity.
  - intros HN mu. rewrite (proj2 (Nat.eqb_neq N 0)) by lia.
    change (solve N (ergodic_A N Pi) (ergodic_B N)) with
      (solve N (fun i j => if Nat.eqb i (N - 1) then 1 else mget Pi j i - (if Nat.eqb i j then 1 else 0))
           (fun i => if Nat.eqb i (N - 1) then 1 else 0)).
    destruct (solve N _ _) as [v|e]; cbn [bind]; split; intros E; try discriminate; injection E as ->; reflexivity.
Qed.

Lemma ergodic_iid_no_node : forall g solve m dr grid dp Pi,
  ergodic_matrix_iid g m dr grid dp = Ok Pi ->
  let N := nrow (u_nodes grid) in
  (N = 0%nat -> ergodic_distribution_iid g solve m dr grid dp = Err ExcIndex) /\
  ((0 < N)%nat -> forall mu, ergodic_distribution_iid g solve m dr grid dp = Ok (Pi, mu) <->
     solve N (fun i j => if Nat.eqb i (N - 1) then 1 else mget Pi j i - (if Nat.eqb i j then 1 else 0))
           (fun i => if Nat.eqb i (N - 1) then 1 else 0) = Ok mu).
Proof.
  intros g solve m dr grid dp Pi H N. unfold ergodic_distribution_iid. rewrite H. cbn [bind]. fold N. split.
  - intros ->. reflexivity.
  - intros HN mu. rewrite (proj2 (Nat.eqb_neq N 0)) by lia.
    change (solve N (ergodic_A N Pi) (ergodic_B N)) with
      (solve N (fun i j => if Nat.eqb i (N - 1) then 1 else mget Pi j i - (if Nat.eqb i j then 1 else 0))
           (fun i => if Nat.eqb i (N - 1) then 1 else 0)).
    destruct (solve N _ _) as [v|e]; cbn [bind]; split; intros E; try discriminate; injection E as ->; reflexivity.
Qed.
