(** Proofs about simulations.py: tables, impulse responses, counter-examples. *)
From Coq Require Import String Reals List Arith ZArith Lia Lra Bool.
From Verif.Base Require Import Prelude Arrays.
From Verif.Model Require Import Discretization Grids Processes DecisionRule Simulation.
From Verif.Spec Require Import Simulation.
From Verif.Proofs Require Import TimeIterationProofs SimulationProofs.
Import ListNotations.
Open Scope R_scope.

(* ------------------------------------------------------------------ *)
(** ** tabulate *)

Lemma set_entry_length : forall b v i y, length (set_entry b v i y) = length v.
Proof. intros. unfold set_entry. now rewrite map_length, seq_length. Qed.

Lemma set_entry_other : forall b v i y j, j <> i -> nth j (set_entry b v i y) 0 = nth j v 0.
Proof.
  intros b v i y j H. destruct (Nat.lt_ge_cases j (length v)).
  - unfold set_entry. rewrite nth_map_seq by assumption. apply Nat.eqb_neq in H. now rewrite H.
  - rewrite !nth_overflow; auto. now rewrite set_entry_length.
Qed.

Lemma set_entry_same : forall v i y, (i < length v)%nat -> nth i (set_entry false v i y) 0 = y.
Proof. intros. unfold set_entry. rewrite nth_map_seq by assumption. now rewrite Nat.eqb_refl. Qed.

Lemma set_entry_only : forall v i y, (i < length v)%nat -> only_changed v (set_entry false v i y) i y.
Proof.
  intros. split; [apply set_entry_length|]. split; [apply set_entry_same; assumption|].
  intros; apply set_entry_other; assumption.
Qed.

Lemma linspace_spaced : forall lo hi n, (1 <= n)%nat -> evenly_spaced lo hi n (linspace lo hi n).
Proof.
  intros lo hi n Hn. split; [apply linspace_first; assumption|]. split; [apply linspace_last|].
  intros k Hk. apply linspace_step. lia.
Qed.

Lemma name_index_spec : forall v l i, name_index v l = Ok i -> nth_error l i = Some v.
Proof.
  intros v; induction l as [|w l IH]; intros i H; simpl in H; [discriminate|].
  destruct (String.eqb_spec v w); [inversion H; subst; reflexivity|].
  destruct (name_index v l); cbn [bind] in H; inversion H; subst. cbn. apply IH; reflexivity.
Qed.

Lemma name_index_found : forall v l, In v l -> exists i, name_index v l = Ok i.
Proof.
  intros v; induction l as [|w l IH]; intros H; [destruct H|]. simpl.
  destruct (String.eqb_spec v w); [eauto|]. destruct H as [H|H]; [congruence|].
  destruct (IH H) as [i E]. rewrite E. cbn [bind]. eauto.
Qed.

Lemma tab_bounds_spec : forall dr domain index b lo hi,
    tab_bounds dr domain index b = Ok (lo, hi) -> bounds_from dr domain index b lo hi.
Proof.
  intros dr domain index b lo hi H. unfold tab_bounds, bounds_from in *.
  destruct b; [inversion H; reflexivity|].
  assert (D : bind domain (fun d => match nth_error (fst d) index, nth_error (snd d) index with
                                    | Some a, Some b => Ok (a, b)
                                    | _, _ => Err ExcIndex
                                    end) = Ok (lo, hi) ->
     exists l h, domain = Ok (l, h) /\ nth_error l index = Some lo /\ nth_error h index = Some hi).
  { destruct domain as [[l h]|e]; cbn [bind fst snd]; [|discriminate].
    destruct (nth_error l index) eqn:E1; [|discriminate]. destruct (nth_error h index) eqn:E2; [|discriminate].
    intros E; inversion E; subst. eauto. }
  destruct (tr_min dr) as [l|]; [|right; apply D; assumption].
  destruct (tr_max dr) as [h|]; [|right; apply D; assumption].
  destruct (nth_error l index) eqn:E1; [|right; apply D; assumption].
  destruct (nth_error h index) eqn:E2; [|right; apply D; assumption].
  inversion H; subst. left. exists l, h. auto.
Qed.

Lemma tab_eval_spec : forall md dr dp a svec m xvec,
    tab_eval md dr dp a svec = Ok (m, xvec) ->
    evaluated_at md dr dp (ta_i0 a) (ta_m0 a) svec m xvec.
Proof.
  intros md dr dp a svec m xvec H. unfold tab_eval, evaluated_at in *.
  assert (I : forall i, bind (tp_node dp i) (fun m => bind (tr_is dr i svec) (fun xvec => Ok (m, xvec))) = Ok (m, xvec) ->
              tp_node dp i = Ok m /\ tr_is dr i svec = Ok xvec).
  { intros i. destruct (tp_node dp i); cbn [bind]; [|discriminate].
    destruct (tr_is dr i svec); cbn [bind]; [|discriminate]. intros E; inversion E; auto. }
  assert (V : forall v, bind (tr_ms dr v svec) (fun xvec => Ok (v, xvec)) = Ok (m, xvec) ->
              m = v /\ tr_ms dr v svec = Ok xvec).
  { intros v. destruct (tr_ms dr v svec); cbn [bind]; [|discriminate]. intros E; inversion E; auto. }
  destruct (ta_i0 a) as [i|], (ta_m0 a) as [v|]; auto.
  destruct (tp_unstructured dp); auto.
Qed.

Lemma nth_combine_lt : forall {A B} (l : list A) (l' : list B) k a b,
    length l = length l' -> nth k (combine l l') (a, b) = (nth k l a, nth k l' b).
Proof. intros. apply combine_nth. assumption. Qed.

Lemma tabulate_spec : forall md dr dp domain a out,
    tabulate md dr dp domain a = Ok out ->
    forall ints s0, orelse (ta_s0 a) (false, sm_s md) = (ints, s0) -> ints = false ->
    exists index lo hi v m svec xvec,
      nth_error (sm_states md) index = Some (ta_state a) /\
      bounds_from dr domain index (ta_bounds a) lo hi /\
      evenly_spaced lo hi (ta_steps a) v /\
      length svec = ta_steps a /\ length xvec = ta_steps a /\
      (forall k, (k < ta_steps a)%nat -> only_changed s0 (nth k svec []) index (v k)) /\
      evaluated_at md dr dp (ta_i0 a) (ta_m0 a) svec m xvec /\
      length (to_rows out) = ta_steps a /\
      to_names out = sm_exogenous md ++ sm_states md ++ sm_controls md ++
                     (match sm_aux md with Some _ => sm_auxiliaries md | None => [] end) /\
      (forall k, (k < ta_steps a)%nat ->
         nth k (to_rows out) [] =
         m ++ nth k svec [] ++ nth k xvec [] ++
         (match sm_aux md with Some aux => aux m (nth k svec []) (nth k xvec []) | None => [] end)).
Proof.
  intros md dr dp domain a out H ints s0 Es Hi. subst ints. unfold tabulate in H.
  destruct (name_index (ta_state a) (sm_states md)) as [index|] eqn:EI; cbn [bind] in H; [|discriminate].
  destruct (tab_bounds dr domain index (ta_bounds a)) as [[lo hi]|] eqn:EB; cbn [bind] in H; [|discriminate].
  cbv zeta in H. rewrite Es in H. cbn [fst snd] in H.
  destruct (Nat.eqb_spec (ta_steps a) 0) as [|Hn]; [discriminate|].
  destruct (Nat.ltb_spec index (length s0)) as [L|L]; cbn [negb] in H; [|discriminate].
  set (svec := map (set_entry false s0 index) (map (linspace lo hi (ta_steps a)) (seq 0 (ta_steps a)))) in *.
  destruct (tab_eval md dr dp a svec) as [[m xvec]|] eqn:EE; cbn [bind] in H; [|discriminate].
  destruct (Nat.eqb_spec (length xvec) (ta_steps a)) as [LX|LX]; cbn [negb] in H; [|discriminate].
  injection H as H. subst out. cbn [to_rows to_names].
  assert (LS : length svec = ta_steps a) by (unfold svec; now rewrite !map_length, seq_length).
  exists index, lo, hi, (linspace lo hi (ta_steps a)), m, svec, xvec.
  split; [apply name_index_spec; assumption|]. split; [apply tab_bounds_spec; assumption|].
  split; [apply linspace_spaced; lia|]. split; [assumption|]. split; [assumption|].
  split; [|split; [apply tab_eval_spec; assumption|]; split; [|split; [reflexivity|]]].
  - intros k Hk. unfold svec. rewrite map_map, nth_map_seq by assumption. apply set_entry_only; assumption.
  - rewrite map_length, combine_length. lia.
  - intros k Hk. rewrite (nth_map_lt _ _ _ _ ([], [])) by (rewrite combine_length; lia).
    rewrite nth_combine_lt by lia. reflexivity.
Qed.

Lemma tabulate_ok : forall md dr dp domain a ints s0,
    In (ta_state a) (sm_states md) -> (1 <= ta_steps a)%nat ->
    (exists b, ta_bounds a = Some b) ->
    orelse (ta_s0 a) (false, sm_s md) = (ints, s0) -> length s0 = length (sm_states md) ->
    (exists i m, ta_i0 a = Some i /\ tp_node dp i = Ok m) ->
    (forall i svec, exists xvec, tr_is dr i svec = Ok xvec /\ length xvec = length svec) ->
    exists out, tabulate md dr dp domain a = Ok out.
Proof.
  intros md dr dp domain a ints s0 HI Hn [b Hb] Es Hl (i & m & Hi & Hm) Ht. unfold tabulate.
  destruct (name_index_found _ _ HI) as [index EI]. rewrite EI. cbn [bind]. rewrite Hb. unfold tab_bounds. cbn [bind].
  rewrite Es. destruct (Nat.eqb_spec (ta_steps a) 0); [lia|].
  pose proof (name_index_spec _ _ _ EI) as Hnth.
  destruct (Nat.ltb_spec index (length s0)) as [L|L].
  2:{ exfalso. rewrite Hl in L. apply nth_error_None in L. congruence. }
  cbn [negb]. unfold tab_eval. rewrite Hi.
  match goal with |- context[tr_is dr i ?sv] => destruct (Ht i sv) as [xvec [EX LX]] end.
  assert (LX' : length xvec = ta_steps a) by (rewrite LX, !map_length; apply seq_length).
  destruct (ta_m0 a); rewrite Hm; cbn [bind]; rewrite EX; cbn [bind]; rewrite LX', Nat.eqb_refl; cbn [negb]; eexists; reflexivity.
Qed.

(** Cartesian exogenous grid. *)
Lemma tabulate_cartesian : forall el ec exo endo k c lo hi md dp domain a,
    (exists u, exo = GUniform u) \/ (exists u, exo = GNonUniform u) ->
    (2 <= ta_steps a)%nat ->
    is_err (tabulate md (grid_tab_rule el ec exo endo k c lo hi) dp domain a).
Proof.
  intros el ec exo endo k c lo hi md dp domain a Hexo Hn. unfold tabulate.
  destruct (name_index (ta_state a) (sm_states md)) as [index|]; cbn [bind]; [|eexists; reflexivity].
  destruct (tab_bounds _ domain index (ta_bounds a)) as [[b1 b2]|]; cbn [bind]; [|eexists; reflexivity].
  destruct (orelse (ta_s0 a) (false, sm_s md)) as [ints s0].
  destruct (Nat.eqb_spec (ta_steps a) 0); [eexists; reflexivity|].
  destruct (Nat.ltb index (length s0)); cbn [negb]; [|eexists; reflexivity].
  set (svec := map _ _).
  assert (LS : length svec = ta_steps a) by (unfold svec; now rewrite !map_length, seq_length).
  assert (EI : forall i, is_err (tr_is (grid_tab_rule el ec exo endo k c lo hi) i svec)).
  { intros i. cbn [tr_is grid_tab_rule]. unfold eval_is.
    assert (C : forall m, is_err (concat_cols [m] svec)).
    { intros m. unfold concat_cols. cbn [length]. destruct (Nat.eqb_spec 1 (length svec)); [lia|eexists; reflexivity]. }
    assert (G : forall m, is_err (eval_ms el ec exo endo k c [m] svec)).
    { intros m. unfold eval_ms. destruct (C m) as [e Ce].
      destruct Hexo as [[u E]|[u E]]; subst exo;
        (destruct (grid_dims endo); [|eexists; reflexivity]); destruct k; try (eexists; reflexivity);
        (destruct (grid_add _ endo); cbn [bind]; [rewrite Ce|]; eexists; reflexivity). }
    destruct Hexo as [[u E]|[u E]]; subst exo;
      (destruct (grid_dims endo); [|eexists; reflexivity]); destruct k; try (eexists; reflexivity);
      (destruct (grid_node _ i) as [m|]; cbn [bind]; [apply G|eexists; reflexivity]). }
  assert (EV : forall m, is_err (tr_ms (grid_tab_rule el ec exo endo k c lo hi) m svec)).
  { intros m. destruct Hexo as [[u E]|[u E]]; subst exo; eexists; reflexivity. }
  assert (EE : is_err (tab_eval md (grid_tab_rule el ec exo endo k c lo hi) dp a svec)).
  { unfold tab_eval.
    assert (I : forall i, is_err (bind (tp_node dp i) (fun m =>
              bind (tr_is (grid_tab_rule el ec exo endo k c lo hi) i svec) (fun xvec => Ok (m, xvec))))).
    { intros i. destruct (tp_node dp i); cbn [bind]; [|eexists; reflexivity]. destruct (EI i) as [e E]. rewrite E.
      eexists; reflexivity. }
    assert (V : forall v, is_err (bind (tr_ms (grid_tab_rule el ec exo endo k c lo hi) v svec) (fun xvec => Ok (v, xvec)))).
    { intros v. destruct (EV v) as [e E]. rewrite E. eexists; reflexivity. }
    destruct (ta_i0 a) as [i|], (ta_m0 a) as [v|]; auto. destruct (tp_unstructured dp); auto. }
  destruct EE as [e EE]. rewrite EE. eexists; reflexivity.
Qed.

(** The default index. *)
Lemma middle_spec : forall n, (1 <= n)%nat ->
    (middle n < n)%nat /\ (n - 1 - middle n = middle n \/ n - 1 - middle n = middle n + 1)%nat.
Proof.
  intros n Hn. unfold middle. pose proof (Nat.div_mod n 2 ltac:(lia)). pose proof (Nat.mod_upper_bound n 2 ltac:(lia)).
  set (q := (n / 2)%nat) in *. set (r := (n mod 2)%nat) in *. lia.
Qed.

(* ------------------------------------------------------------------ *)
(** ** tabulate_2d *)

Lemma tabulate_2d_spec : forall md is1 domain states i0 s0arg nx ny out s0,
    tabulate_2d md is1 domain states i0 s0arg nx ny = Ok out ->
    orelse s0arg (false, sm_s md) = (false, s0) ->
    exists v w ix iy dv dw,
      orelse states (sm_states md) = [v; w] /\
      nth_error (sm_states md) ix = Some v /\ nth_error (sm_states md) iy = Some w /\
      domain v = Ok dv /\ domain w = Ok dw /\
      (ix <> iy -> forall a b, (a < nx)%nat -> (b < ny)%nat ->
         exists s x, out a b = s ++ x /\ is1 i0 s = Ok x /\
           two_changed s0 s ix iy (linspace (fst dv) (snd dv) nx a) (linspace (fst dw) (snd dw) ny b)).
Proof.
  intros md is1 domain states i0 s0arg nx ny out s0 H Es. unfold tabulate_2d in H.
  destruct (orelse states (sm_states md)) as [|v [|w [|? ?]]]; try discriminate.
  destruct (domain v) as [dv|] eqn:Ev; cbn [bind] in H; [|discriminate].
  destruct (domain w) as [dw|] eqn:Ew; cbn [bind] in H; [|discriminate].
  destruct (name_index v (sm_states md)) as [ix|] eqn:Ex; cbn [bind] in H; [|discriminate].
  destruct (name_index w (sm_states md)) as [iy|] eqn:Ey; cbn [bind] in H; [|discriminate].
  rewrite Es in H.
  exists v, w, ix, iy, dv, dw. split; [reflexivity|]. split; [apply name_index_spec; assumption|].
  split; [apply name_index_spec; assumption|]. split; [assumption|]. split; [assumption|]. intros Hne.
  match type of H with bind ?l _ = _ => destruct l as [[sf o]|] eqn:EL; [|discriminate] end.
  cbn [bind snd] in H. injection H as H. subst o.
  set (good := fun (out : nat -> nat -> list R) a b => exists s x, out a b = s ++ x /\ is1 i0 s = Ok x /\
           two_changed s0 s ix iy (linspace (fst dv) (snd dv) nx a) (linspace (fst dw) (snd dw) ny b)).
  set (near := fun s : list R => length s = length s0 /\ forall k, k <> ix -> k <> iy -> nth k s 0 = nth k s0 0).
  assert (Q : near sf /\ forall a, (a < nx)%nat -> forall b, (b < ny)%nat -> good out a b).
  { refine (for_range_res_inv (fun k (st : list R * (nat -> nat -> list R)) =>
        near (fst st) /\ forall a, (a < k)%nat -> forall b, (b < ny)%nat -> good (snd st) a b) nx _ _ (sf, out) _ _ EL).
    - split; [split; [reflexivity|auto]|intros; lia].
    - intros k [s o] [s' o'] Hk [N1 G1] E. cbn [fst snd] in *.
      destruct (Nat.ltb_spec ix (length s)) as [Lx|]; cbn [negb] in E; [|discriminate].
      set (s1 := set_entry false s ix (linspace (fst dv) (snd dv) nx k)) in *.
      assert (N2 : near s1 /\ nth ix s1 0 = linspace (fst dv) (snd dv) nx k).
      { destruct N1 as [N1 N1']. split; [split|].
        - unfold s1. now rewrite set_entry_length.
        - intros j Hj Hj'. unfold s1. rewrite set_entry_other by assumption. auto.
        - unfold s1. apply set_entry_same; assumption. }
      assert (R : (near s' /\ nth ix s' 0 = linspace (fst dv) (snd dv) nx k) /\
                  (forall a, (a < k)%nat -> forall b, (b < ny)%nat -> good o' a b) /\
                  (forall b, (b < ny)%nat -> good o' k b)).
      { refine (for_range_res_inv (fun l (st : list R * (nat -> nat -> list R)) =>
           (near (fst st) /\ nth ix (fst st) 0 = linspace (fst dv) (snd dv) nx k) /\
           (forall a, (a < k)%nat -> forall b, (b < ny)%nat -> good (snd st) a b) /\
           (forall b, (b < l)%nat -> good (snd st) k b)) ny _ _ (s', o') _ _ E).
        - cbn [fst snd]. split; [assumption|]. split; [assumption|]. intros; lia.
        - clear s' o' E. intros l [s' o'] [s'' o''] Hl [[M1 M2] [M3 M4]] E. cbn [fst snd] in *.
          destruct (Nat.ltb_spec iy (length s')) as [Ly|]; cbn [negb] in E; [|discriminate].
          set (s2 := set_entry false s' iy (linspace (fst dw) (snd dw) ny l)) in *.
          destruct (is1 i0 s2) as [x|] eqn:EX; cbn [bind] in E; [|discriminate]. injection E as E1 E2. subst s'' o''.
          destruct M1 as [M1 M1'].
          assert (K : near s2) by
            (split; [unfold s2; now rewrite set_entry_length
                    |intros j Hj Hj'; unfold s2; rewrite set_entry_other by assumption; auto]).
          assert (K2 : nth ix s2 0 = linspace (fst dv) (snd dv) nx k)
            by (unfold s2; rewrite set_entry_other by assumption; assumption).
          split; [split; assumption|]. split.
          + intros a Ha b Hb. destruct (M3 a Ha b Hb) as (sa & xa & A1 & A2). exists sa, xa.
            rewrite upd2_other by lia. auto.
          + intros b Hb. destruct (Nat.eq_dec b l).
            * subst b. exists s2, x. rewrite upd2_same. split; [reflexivity|]. split; [assumption|].
              destruct K as [K K']. split; [assumption|]. split; [assumption|]. split; [|assumption].
              unfold s2. apply set_entry_same; assumption.
            * destruct (M4 b ltac:(lia)) as (sa & xa & A1 & A2). exists sa, xa. rewrite upd2_other by lia. auto. }
      destruct R as [[R1 _] [R2 R3]]. split; [assumption|]. intros a Ha. destruct (Nat.eq_dec a k); [subst; assumption|].
      apply R2; lia. }
  destruct Q as [_ Q]. intros a b Ha Hb. apply Q; assumption.
Qed.

Lemma tabulate_2d_grid : forall md domain states i0 s0 nx ny,
    (1 <= nx)%nat -> (1 <= ny)%nat -> is_err (tabulate_2d md grid_is1 domain states i0 s0 nx ny).
Proof.
  intros md domain states i0 s0 nx ny Hx Hy. unfold tabulate_2d.
  destruct (orelse states (sm_states md)) as [|v [|w [|? ?]]]; try (eexists; reflexivity).
  destruct (domain v) as [dv|]; cbn [bind]; [|eexists; reflexivity].
  destruct (domain w) as [dw|]; cbn [bind]; [|eexists; reflexivity].
  destruct (name_index v (sm_states md)) as [ix|]; cbn [bind]; [|eexists; reflexivity].
  destruct (name_index w (sm_states md)) as [iy|]; cbn [bind]; [|eexists; reflexivity].
  destruct (orelse s0 (false, sm_s md)) as [ints s].
  assert (Q : forall {A} n (body : nat -> A -> res A) st,
             (1 <= n)%nat -> (forall k x, is_err (body k x)) -> is_err (for_range_res n body st)).
  { intros A n body st Hn Hb. destruct n as [|n]; [lia|]. clear Hn. induction n as [|n IH].
    - cbn. apply Hb.
    - cbn [for_range_res] in *. destruct (bind (for_range_res n body st) (body n)) eqn:E; [|eexists; reflexivity].
      cbn [bind]. apply Hb. }
  match goal with |- is_err (bind ?l _) => assert (E : is_err l) end.
  { apply Q; [assumption|]. intros k [s' o]. destruct (Nat.ltb ix (length s')); cbn [negb]; [|eexists; reflexivity].
    apply Q; [assumption|]. intros l [s'' o']. destruct (Nat.ltb iy (length s'')); cbn [negb]; eexists; reflexivity. }
  destruct E as [e E]. rewrite E. eexists; reflexivity.
Qed.

Lemma tabulate_2d_constant : forall md x0 domain v w i0 nx ny s0,
    sm_states md = [v; w] -> sm_s md = s0 -> length s0 = 2%nat -> v <> w ->
    (forall u, exists d, domain u = Ok d) ->
    exists out, tabulate_2d md (constant_is1 x0) domain None i0 None nx ny = Ok out.
Proof.
  intros md x0 domain v w i0 nx ny s0 Hst Hs Hl Hne Hd. unfold tabulate_2d. cbn [orelse]. rewrite Hst.
  destruct (Hd v) as [dv Ev], (Hd w) as [dw Ew]. rewrite Ev, Ew. cbn [bind name_index].
  rewrite String.eqb_refl. cbn [bind]. destruct (String.eqb_spec w v) as [E|_]; [congruence|].
  rewrite String.eqb_refl. cbn [bind]. rewrite Hs.
  match goal with |- exists out, bind ?l _ = _ => assert (E : exists st, l = Ok st) end.
  { match goal with |- exists st, for_range_res _ ?b ?i = _ =>
      destruct (for_range_res_ok (fun _ (st : list R * (nat -> nat -> list R)) => length (fst st) = 2%nat) nx b i Hl) as [r [E _]]
    end; [|eauto].
    intros k [s o] _ Hlen. cbn [fst] in Hlen. rewrite Hlen. cbn [Nat.ltb Nat.leb negb].
    match goal with |- exists y, for_range_res _ ?b ?i = _ /\ _ =>
      destruct (for_range_res_ok (fun _ (st : list R * (nat -> nat -> list R)) => length (fst st) = 2%nat) ny b i) as [r [E P]]
    end.
    - cbn [fst]. now rewrite set_entry_length.
    - intros l [s' o'] _ Hlen'. cbn [fst] in Hlen'. rewrite Hlen'. cbn [Nat.ltb Nat.leb negb]. unfold constant_is1.
      cbn [bind]. eexists. split; [reflexivity|]. cbn [fst]. now rewrite set_entry_length.
    - eauto. }
  destruct E as [st E]. rewrite E. eexists; reflexivity.
Qed.

(* ------------------------------------------------------------------ *)
(** ** response *)

Section Response.
  Variable rng : Type.
  Variable seeded : Z -> rng.
  Variable rand : rng -> nat -> R.
  Variable skip : rng -> nat -> rng.
  Variable md : sim_model.
  Variable dr : rule.
  Variable dflt : sim_process rng.

  Lemma response_spec : forall i T impulse seed r out r',
      response seeded rand skip md dr dflt KIid (Some i) T impulse seed r = (Ok out, r') ->
      so_T out = T /\ so_N out = 1%nat /\ exists s x,
        reported md out None (impulse_path md i impulse) s x /\
        starts_at (sm_s md) 1 s /\
        rule_followed dr T 1 None (impulse_path md i impulse) s x /\
        lagged_law (sm_g md) T 1 (impulse_path md i impulse 0%nat) (impulse_path md i impulse) s x.
  Proof.
    intros i T impulse seed r out r' H. unfold response in H. destruct T as [|T1]; [inversion H|].
    unfold iid_response in H. destruct (Nat.ltb 1 (T1 + 1)); [|inversion H].
    apply simulate_spec in H. destruct H as (A & B & ii & m & before & s & x & Src & Rep & St & RF & LL).
    cbn [sa_driving sa_s0 sa_T sa_N orelse] in *. unfold exogenous_source in Src. cbn [sa_driving sa_T] in Src.
    destruct Src as (_ & E & Em & Eb). subst ii. split; [assumption|]. split; [assumption|].
    exists s, x. 
    assert (Em' : forall t n, m t n = impulse_path md i impulse t n) by (intros; rewrite Em; reflexivity).
    split; [|split; [assumption|split]].
    - refine (reported_ext md out None m s x _ s x _ Rep). intros; rewrite Em'; auto.
    - intros t n Ht Hn. rewrite <- Em'. apply (RF t n Ht Hn).
    - intros t n Ht Hn. rewrite (LL t n Ht Hn). rewrite Em'. f_equal.
      destruct t; [rewrite Eb; reflexivity|apply Em'].
  Qed.

  Lemma response_ok : forall i T impulse seed r, (2 <= T)%nat -> (forall m s, exists x, ru_ms dr m s = Ok x) ->
      exists out r', response seeded rand skip md dr dflt KIid (Some i) T impulse seed r = (Ok out, r').
  Proof.
    intros i T impulse seed r HT H. destruct T as [|T1]; [lia|]. cbn [response].
    unfold iid_response. destruct (Nat.ltb_spec 1 (T1 + 1)); [|lia].
    match goal with |- exists out r', simulate _ _ _ _ _ _ ?a _ = _ =>
      destruct (simulate_path_ok rng seeded rand skip md dr dflt a _ r eq_refl) as [out E] end;
      [cbn; lia|assumption|]. rewrite E. eauto.
  Qed.

  Lemma response_persistent : forall kind i T impulse seed r,
      kind <> KIid -> is_err (fst (response seeded rand skip md dr dflt kind i T impulse seed r)).
  Proof.
    intros kind i T impulse seed r Hk. unfold response. destruct i as [i|]; [|eexists; reflexivity].
    destruct T as [|T1]; [eexists; reflexivity|].
    destruct kind as [|rho sigma mu|v]; [congruence| |].
    - cbn [fst]. destruct (ar1_response _ _ _ _ _); eexists; reflexivity.
    - cbn [fst]. destruct (var1_response _ _ _); eexists; reflexivity.
  Qed.

  (** States at dates 0 and 1 do not depend on the size of the shock of date 1. *)
  Lemma response_late : forall i T imp1 imp2 seed r1 r2 out1 out2 r1' r2',
      (2 <= T)%nat ->
      response seeded rand skip md dr dflt KIid (Some i) T imp1 seed r1 = (Ok out1, r1') ->
      response seeded rand skip md dr dflt KIid (Some i) T imp2 seed r2 = (Ok out2, r2') ->
      exists s1 x1 s2 x2,
        reported md out1 None (impulse_path md i imp1) s1 x1 /\
        reported md out2 None (impulse_path md i imp2) s2 x2 /\
        s1 0%nat 0%nat = s2 0%nat 0%nat /\ s1 1%nat 0%nat = s2 1%nat 0%nat.
  Proof.
    intros i T imp1 imp2 seed r1 r2 out1 out2 r1' r2' HT H1 H2.
    destruct (response_spec _ _ _ _ _ _ _ H1) as (_ & _ & s1 & x1 & R1 & S1 & F1 & L1).
    destruct (response_spec _ _ _ _ _ _ _ H2) as (_ & _ & s2 & x2 & R2 & S2 & F2 & L2).
    exists s1, x1, s2, x2. split; [assumption|]. split; [assumption|].
    specialize (S1 0%nat ltac:(lia)). specialize (S2 0%nat ltac:(lia)).
    specialize (F1 0%nat 0%nat ltac:(lia) ltac:(lia)). specialize (F2 0%nat 0%nat ltac:(lia) ltac:(lia)).
    specialize (L1 0%nat 0%nat ltac:(lia) ltac:(lia)). specialize (L2 0%nat 0%nat ltac:(lia) ltac:(lia)).
    cbn beta iota in F1, F2.
    assert (P0 : impulse_path md i imp1 0%nat 0%nat = impulse_path md i imp2 0%nat 0%nat) by reflexivity.
    rewrite S1 in *. rewrite S2 in *. split; [reflexivity|]. rewrite L1, L2, <- P0.
    rewrite P0 in F1. rewrite F1 in F2. injection F2 as F2. now rewrite F2.
  Qed.
End Response.

(* ------------------------------------------------------------------ *)
(** ** Counter-examples *)

(** One exogenous variable, one state and one control; the state is next period's shock, the control
    is zero, an auxiliary variable copies the state. *)
Definition shock_model : sim_model :=
  SimModel ["m"%string] ["s"%string] ["x"%string] ["a"%string] [0] [0]
    (fun m s x M => M) (Some (fun m s x => s)).
Definition zero_rule (nodes : mat) : rule := Rule (fun _ _ => Ok [0]) (fun _ _ => Ok [0]) (Ok nodes).
Definition no_nodes : mat := Mat 0 1 (fun _ _ => 0).
Definition ramp : path := fun t _ => [INR t].
Definition ramp_args {rng} : sim_args rng := SimArgs None 1 3 None None None (DPath 3 ramp) 42 true.

Lemma timing_wrong : forall rng (seeded : Z -> rng) rand skip dflt r,
    exists out r', simulate seeded rand skip shock_model (zero_rule no_nodes) dflt ramp_args r = (Ok out, r') /\
      forall s x, reported shock_model out None ramp s x ->
        ~ law_of_motion (sm_g shock_model) 3 1 ramp s x.
Proof.
  intros rng seeded rand skip dflt r.
  destruct (simulate_path_ok rng seeded rand skip shock_model (zero_rule no_nodes) dflt ramp_args ramp r eq_refl)
    as [out E]; [cbn; lia|intros; eexists; reflexivity|].
  exists out, (seeded 42%Z). split; [exact E|]. intros s x Rep LM.
  destruct (simulate_spec _ _ _ _ _ _ _ _ _ _ _ E) as (ET & EN & ii & m & before & s' & x' & Src & Rep' & St & RF & LL).
  cbn in ET, EN. unfold exogenous_source in Src. cbn in Src. destruct Src as (_ & E1 & Em & Eb). subst ii.
  destruct Rep as [_ R1]. destruct Rep' as [_ R2].
  specialize (R1 1%nat 0%nat). specialize (R2 1%nat 0%nat). rewrite ET, EN in *.
  rewrite R2 in R1 by lia. specialize (R1 ltac:(lia) ltac:(lia)). cbn in R1.
  specialize (LM 0%nat 0%nat ltac:(lia) ltac:(lia)). specialize (LL 0%nat 0%nat). cbn in LL, LM.
  rewrite (LL ltac:(lia) ltac:(lia)), LM, (Em 1%nat), (Em 0%nat) in R1. cbn in R1.
  inversion R1. lra.
Qed.

(** The generator matters in spite of the seed: a chain with two equally likely states. *)
Definition two_states : chain :=
  (Mat 2 1 (fun i _ => INR i), Mat 2 2 (fun _ _ => 1 / 2)).
Definition draw_args : sim_args R := SimArgs (Some (SChain two_states)) 1 2 None None None DNone 42 true.
Definition draw_sim (seeded : Z -> R) (r : R) : res sim_out * R :=
  simulate seeded (fun r _ => r) (fun r _ => r) shock_model (zero_rule (fst two_states)) (SChain two_states)
    draw_args r.

Lemma draw_index : forall seeded r, 0 <= r < 1 ->
    exists out r', draw_sim seeded r = (Ok out, r') /\
      value_of (so_names out) (so_row out 1%nat 0%nat) "_i_m" = Some (if Rlt_dec r (1 / 2) then 0 else 1).
Proof.
  intros seeded r Hr.
  assert (C : choice r 2 (mget (cumsum_rows (snd two_states)) 0) = if Rlt_dec r (1 / 2) then 0%nat else 1%nat).
  { unfold choice. cbn. destruct (Rlt_dec r (0 + 1 / 2)) as [L|L]; destruct (Rlt_dec r (1 / 2)); try lra; [reflexivity|].
    destruct (Rlt_dec r (0 + 1 / 2 + 1 / 2)); [reflexivity|lra]. }
  assert (D : distinct_rows (fst two_states)).
  { intros i j Hi Hj E. cbn in E. injection E as E. apply INR_eq. assumption. }
  assert (I : exists inds, simulate_markov_chain (fst two_states) (snd two_states) 1 2 (fun _ => 0%nat) false (fun _ => r) = Ok inds /\
            inds 0%nat 0%nat = 0%nat /\ inds 1%nat 0%nat = if Rlt_dec r (1 / 2) then 0%nat else 1%nat).
  { unfold simulate_markov_chain, simulate_mc_indices.
    cbn [for_range_res bind fst snd two_states cumsum_rows nrow]. cbn [Nat.ltb Nat.leb bind].
    eexists. split; [reflexivity|]. split; [reflexivity|]. exact C. }
  destruct I as (inds & EI & I0 & I1).
  assert (O : exists out r', draw_sim seeded r = (Ok out, r')).
  { unfold draw_sim, simulate. cbn [sa_T draw_args Nat.eqb]. unfold prepare. cbn [sa_driving sa_process draw_args orelse].
    unfold chain_simulate, mc_simulate. cbn [sa_N sa_T sa_i0 sa_stochastic draw_args orelse]. rewrite EI. cbn [bind].
    assert (F : forallb (fun t => forallb (fun n => Nat.ltb (inds t n) (nrow (fst two_states))) (seq 0 1)) (seq 0 2) = true).
    { cbn. rewrite I0, I1. destruct (Rlt_dec r (1 / 2)); reflexivity. }
    rewrite F. cbn [bind].
    destruct (proj2 (find_index_ok 2 1 (fun t n => row (fst two_states) (inds t n)) (fst two_states))) as [ind EF].
    { intros n t Hn Ht. exists (inds n t). split; [|reflexivity]. assert (t = 0%nat) by lia. subst t.
      destruct n as [|[|n]]; [rewrite I0; cbn; lia| |lia]. rewrite I1. cbn. destruct (Rlt_dec r (1 / 2)); lia. }
    rewrite EF. cbn [bind]. cbn [Nat.ltb Nat.leb nrow fst two_states ru_is zero_rule bind].
    match goal with |- context[sim_body ?md ?dr ?N ?T ?p] => destruct (sim_loop_ok md dr N T p (sm_s md)) as [[[s x] mp] EL] end;
      [cbn; lia|right; lia|intros; eexists; reflexivity|].
    cbn [orelse sa_s0 draw_args]. rewrite EL. cbn [bind].
    match goal with |- context[sim_table ?md ?N ?T ?p ?s ?x] => destruct (sim_table_ok md N T p s x eq_refl) as [out EO] end.
    rewrite EO. eauto. }
  destruct O as (out & r' & EO). exists out, r'. split; [assumption|].
  destruct (index_reported _ _ _ _ _ _ _ draw_args two_states _ _ _ eq_refl eq_refl D EO) as (inds' & E1 & E2).
  cbn [sa_stochastic draw_args sa_N sa_T sa_i0 orelse] in E1. rewrite EI in E1. injection E1 as E1. subst inds'.
  rewrite (E2 1%nat 0%nat) by (cbn; lia). rewrite I1. destruct (Rlt_dec r (1 / 2)); reflexivity.
Qed.

Lemma seed_useless : forall seeded : Z -> R, exists r1 r2 out1 out2 r1' r2',
    draw_sim seeded r1 = (Ok out1, r1') /\ draw_sim seeded r2 = (Ok out2, r2') /\
    so_row out1 1%nat 0%nat <> so_row out2 1%nat 0%nat.
Proof.
  intros seeded. destruct (draw_index seeded (1 / 4)) as (o1 & r1' & E1 & V1); [lra|].
  destruct (draw_index seeded (3 / 4)) as (o2 & r2' & E2 & V2); [lra|].
  exists (1 / 4), (3 / 4), o1, o2, r1', r2'. split; [assumption|]. split; [assumption|]. intros E.
  assert (N : so_names o1 = so_names o2).
  { destruct (simulate_spec _ _ _ _ _ _ _ _ _ _ _ E1) as (_ & _ & ii & m & b & s & x & Src & [R _] & _).
    destruct (simulate_spec _ _ _ _ _ _ _ _ _ _ _ E2) as (_ & _ & ii' & m' & b' & s' & x' & Src' & [R' _] & _).
    unfold exogenous_source in Src, Src'. cbn [sa_driving draw_args sa_process orelse] in Src, Src'.
    destruct Src as (_ & (i & Ei & _) & _). destruct Src' as (_ & (i' & Ei' & _) & _). subst ii ii'.
    rewrite R, R'. reflexivity. }
  rewrite N, E, V2 in V1. destruct (Rlt_dec (3 / 4) (1 / 2)); [lra|]. destruct (Rlt_dec (1 / 4) (1 / 2)); [|lra].
  injection V1 as V1. lra.
Qed.

(** A chain with two equal nodes (ConstantProcess.discretize(to="mc", N=2)): the index 1 is reported as 0. *)
Definition const_args {rng} : sim_args rng :=
  SimArgs (Some (SChain (constant_mc (Vec 1 (fun _ => 5)) 2))) 1 1 None (Some 1%nat) None DNone 42 false.
Lemma index_wrong : forall rng (seeded : Z -> rng) rand skip dflt r,
    exists out r', simulate seeded rand skip shock_model (zero_rule no_nodes) dflt const_args r = (Ok out, r') /\
      value_of (so_names out) (so_row out 0%nat 0%nat) "_i_m" = Some 0.
Proof.
  intros. unfold simulate. cbn [sa_T const_args Nat.eqb]. unfold prepare. cbn [sa_driving sa_process const_args orelse].
  unfold chain_simulate, mc_simulate. cbn [sa_N sa_T sa_i0 sa_stochastic const_args orelse bind].
  cbn [seq forallb constant_mc fst nrow Nat.ltb Nat.leb andb bind].
  unfold find_index. cbn [for_range_res bind nrow where_first].
  set (r0 := row (Mat 2 (vlen (Vec 1 (fun _ => 5))) (fun _ j => vget (Vec 1 (fun _ => 5)) j)) 0).
  set (r1 := row (Mat 2 (vlen (Vec 1 (fun _ => 5))) (fun _ j => vget (Vec 1 (fun _ => 5)) j)) 1).
  assert (E : r0 = r1) by reflexivity. destruct (row_eq_dec r0 r1) as [_|N]; [|contradiction].
  cbn. do 2 eexists. split; reflexivity.
Qed.

(** A table from an integer starting point. *)
Definition unit_tab_rule : tab_rule :=
  TabRule (fun _ s => Ok (map (fun _ => [0]) s)) (fun _ s => Ok (map (fun _ => [0]) s)) None None.
Definition one_node : tab_process := TabProcess true 1 (fun _ => Ok [0]).
Definition int_args : tab_args := TabArgs "s" (Some (0, 1)) 3 (Some (true, [0])) None None.

Lemma trunc_half : trunc (1 / 2) = 0.
Proof.
  unfold trunc. destruct (Rle_dec 0 (1 / 2)); [|lra].
  replace (Int_part (1 / 2)) with 0%Z; [reflexivity|].
  unfold Int_part. rewrite <- (tech_up (1 / 2) 1); [lia| |]; simpl; lra.
Qed.

Lemma tabulate_integers : exists out,
    tabulate shock_model unit_tab_rule one_node (Err ExcAttribute) int_args = Ok out /\
    value_of (to_names out) (nth 1 (to_rows out) []) "s" = Some 0.
Proof.
  eexists. split; [reflexivity|]. cbn [to_names to_rows]. cbn -[linspace trunc].
  unfold linspace. cbn [Nat.eqb]. replace (0 + INR 1 * ((1 - 0) / (INR 3 - 1))) with (1 / 2) by (simpl; lra).
  rewrite trunc_half. reflexivity.
Qed.

(** A rest point: the state follows m + s - 1 with m = 1. *)
Definition drift_model : sim_model :=
  SimModel ["m"%string] ["s"%string] ["x"%string] [] [7] [1]
    (fun m s x M => [nth 0 s 0 + nth 0 M 0 - 1]) None.
