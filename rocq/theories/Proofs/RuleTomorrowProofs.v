(** The controls of tomorrow used by time iteration are those of the decision rule object (DecisionRule.v). *)
From Coq Require Import String Reals List Arith Lia.
From Verif.Base Require Import Prelude Arrays.
From Verif.Spec Require Import Product RuleTomorrow.
From Verif.Model Require Import Grids Processes DecisionRule TimeIteration TimeIterationCall.
From Verif.Proofs Require Import DecisionRuleProofs TimeIterationProofs.
Import ListNotations.
Open Scope R_scope.

Lemma same_array_sym : forall a b, same_array a b -> same_array b a.
Proof. intros a b (E & H). split; [auto|]. intros q Hq. rewrite <- E in Hq. symmetry. apply H, Hq. Qed.
Lemma same_array_refl : forall a, same_array a a.
Proof. intros a. split; reflexivity. Qed.

Lemma reshape_same : forall a b dims c, same_array a b -> reshape_last a dims = Ok c ->
  exists c', reshape_last b dims = Ok c' /\ same_array c c'.
Proof.
  intros a b dims c (E & H) Hr. unfold reshape_last in *. rewrite <- E.
  destruct (Nat.eqb_spec (prodn dims) 0) as [Z|NZ]; [discriminate|].
  destruct (Nat.eqb_spec (prodn (nd_shape a) mod prodn dims) 0) as [M|M]; [|discriminate].
  injection Hr as <-. eexists. split; [reflexivity|]. split; [reflexivity|]. cbn [nd_shape nd_data]. intros q Hq. apply H.
  assert (P : prodn (dims ++ [(prodn (nd_shape a) / prodn dims)%nat]) = prodn (nd_shape a)).
  { assert (PA : forall l r, prodn (l ++ r) = (prodn l * prodn r)%nat).
    { induction l as [|h t IH]; intros r; cbn [app prodn]; [lia|]. rewrite IH. lia. }
    rewrite PA. cbn [prodn]. rewrite Nat.mul_1_r. pose proof (Nat.div_mod (prodn (nd_shape a)) (prodn dims) NZ). lia. }
  rewrite P in Hq. exact Hq.
Qed.

Lemma map_res_nth : forall {A B} (f : A -> res B) l bs, map_res f l = Ok bs ->
  forall i b, nth_error bs i = Some b -> exists a, nth_error l i = Some a /\ f a = Ok b.
Proof.
  intros A B f l. induction l as [|a l IH]; intros bs H i b Hi; cbn [map_res] in H.
  - injection H as <-. destruct i; discriminate.
  - destruct (f a) as [b0|] eqn:E; [|discriminate]. cbn [bind] in H. destruct (map_res f l) as [bs'|] eqn:E'; [|discriminate].
    cbn [bind] in H. injection H as <-. destruct i as [|i]; cbn in Hi |- *.
    + injection Hi as <-. exists a. split; [reflexivity|exact E].
    + apply (IH bs' eq_refl i b Hi).
Qed.

Section Link.
  Variables el ec : grid -> nd -> list (list R) -> res (list (list R)).
  Variable pre : grid -> nd -> res nd.
  Variables lin cub : grid -> nd -> list R -> list R.
  Hypothesis Hlin : forall g c pts out, el g c pts = Ok out -> out = map (lin g c) pts.
  Hypothesis Hlin2 : forall g c c' p, same_array c c' -> lin g c p = lin g c' p.
  Hypothesis Hcub : forall g c pts out, ec g c pts = Ok out -> out = map (cub g c) pts.
  Hypothesis Hcub2 : forall g c c' p, same_array c c' -> cub g c p = cub g c' p.
  Hypothesis Hpre : prefilter pre.
  Variables (exo : grid) (n_m N n_x : nat).

  (** The values of one state, as an array. *)
  Definition page (v : nat -> nat -> R) : nd := {| nd_shape := [N; n_x]; nd_data := fun q => v (q / n_x)%nat (q mod n_x)%nat |}.

  Definition the_spline (k : interp) (endo : grid) (v : nat -> nat -> R) (p : list R) : list R :=
    match grid_dims endo, k, exo with
    | Some _, Linear, GUnstructured _ => lin endo (page v) p
    | Some dims, Cubic, _ =>
        match bind (reshape_last (page v) dims) (pre endo) with Ok c => cub endo c p | Err _ => [] end
    | _, _, _ => []
    end.
  Definition the_spline_ms (k : interp) (ex endo : grid) (x : tensor) (m p : list R) : list R :=
    match ex with
    | GEmpty => match get_coefficients pre ex endo k (nd_of n_m N n_x x) with Ok (CArr c) => lin endo c p | _ => [] end
    | _ =>
        match grid_add ex endo, get_coefficients pre ex endo k (nd_of n_m N n_x x) with
        | Ok g, Ok (CArr c) => match k with Cubic => cub g c (m ++ p) | _ => lin g c (m ++ p) end
        | _, _ => []
        end
    end.

  Lemma page_of_array : forall x a i b, array_of n_m N n_x x a -> nd_item a i = Ok b -> same_array b (page (x i)).
  Proof.
    intros x a i b (Hs & Hd) H. unfold nd_item in H. rewrite Hs in H. destruct (Nat.ltb_spec i n_m) as [Hi|Hi]; [|discriminate].
    injection H as <-. split; [reflexivity|]. cbn [nd_shape nd_data prodn page]. rewrite Nat.mul_1_r. intros q Hq.
    assert (Hx : (n_x <> 0)%nat) by (intros ->; lia).
    pose proof (Nat.div_mod q n_x Hx) as DM. pose proof (Nat.mod_upper_bound q n_x Hx) as Hm.
    assert (Hq' : (q / n_x < N)%nat) by (apply Nat.div_lt_upper_bound; lia).
    rewrite <- (Hd i (q / n_x)%nat (q mod n_x)%nat Hi Hq' Hm). f_equal. rewrite Nat.mul_add_distr_r. lia.
  Qed.

  Lemma array_nd_of : forall x a, array_of n_m N n_x x a -> same_array a (nd_of n_m N n_x x).
  Proof.
    intros x a (Hs & Hd). split; [exact Hs|]. rewrite Hs. cbn [prodn nd_of nd_data]. rewrite Nat.mul_1_r. intros q Hq.
    assert (Hx : (n_x <> 0)%nat) by (intros ->; lia). assert (HN : (N <> 0)%nat) by (intros ->; lia).
    unfold flatten. pose proof (Nat.div_mod q n_x Hx) as DM. pose proof (Nat.mod_upper_bound q n_x Hx) as Hm.
    pose proof (Nat.div_mod (q / n_x) N HN) as DM2. pose proof (Nat.mod_upper_bound (q / n_x) N HN) as Hm2.
    assert (H1 : (q / n_x < n_m * N)%nat) by (apply Nat.div_lt_upper_bound; lia).
    assert (H2 : (q / n_x / N < n_m)%nat) by (apply Nat.div_lt_upper_bound; lia).
    rewrite <- (Hd _ _ _ H2 Hm2 Hm). f_equal. rewrite (Nat.mul_comm _ N), <- DM2. lia.
  Qed.

  Lemma list_spline : forall x a dims endo j cs c, array_of n_m N n_x x a ->
    map_res (fun i => bind (nd_item a i) (fun xi => bind (reshape_last xi dims) (pre endo))) (seq 0 (hd 0%nat (nd_shape a))) = Ok cs ->
    nth_error cs j = Some c -> exists c', bind (reshape_last (page (x j)) dims) (pre endo) = Ok c' /\ same_array c c'.
  Proof.
    intros x a dims endo j cs c Ha H Hj. destruct (map_res_nth _ _ _ H _ _ Hj) as (j' & E1 & E2).
    assert (j' = j).
    { assert (L : (j < length (seq 0 (hd 0%nat (nd_shape a))))%nat) by (apply nth_error_Some; congruence).
      rewrite (nth_error_nth' _ 0%nat L) in E1. rewrite seq_length in L. rewrite seq_nth in E1 by exact L. injection E1. lia. }
    subst j'. destruct (nd_item a j) as [b|] eqn:Eb; [|discriminate]. cbn [bind] in E2.
    destruct (reshape_last b dims) as [b'|] eqn:Er; [|discriminate]. cbn [bind] in E2.
    destruct (reshape_same _ _ _ _ (page_of_array x a j b Ha Eb) Er) as (b2 & E3 & S3). rewrite E3. cbn [bind].
    destruct (Hpre endo b' b2 c S3 E2) as (c' & E4 & S4). exists c'. split; assumption.
  Qed.

  Lemma concat_repeat : forall m (s x : list (list R)), concat_cols (repeat m (length s)) s = Ok x -> x = map (fun p => m ++ p) s.
  Proof.
    intros m s x H. unfold concat_cols in H. rewrite repeat_length, Nat.eqb_refl in H. injection H as <-.
    induction s as [|p s IH]; [reflexivity|]. cbn. f_equal. exact IH.
  Qed.

  Lemma coefs_same : forall ex endo k a b c, (exists u, ex = GUniform u) \/ (exists u, ex = GNonUniform u) -> same_array a b ->
    get_coefficients pre ex endo k a = Ok c ->
    exists c1 c2, c = CArr c1 /\ get_coefficients pre ex endo k b = Ok (CArr c2) /\ same_array c1 c2.
  Proof.
    intros ex endo k a b c Hex Hab H.
    assert (G : match grid_dims endo, k with
                | Some _, Linear => bind (grid_add ex endo) (fun g =>
                    match grid_dims g with
                    | Some dims => bind (reshape_last a dims) (fun c => Ok (CArr c))
                    | None => Err ExcAttribute end)
                | Some _, Cubic => bind (grid_add ex endo) (fun g =>
                    match grid_dims g with
                    | Some dims => bind (reshape_last a dims) (fun c => bind (pre g c) (fun c => Ok (CArr c)))
                    | None => Err ExcAttribute end)
                | _, _ => Err not_registered end = Ok c).
    { destruct Hex as [(u & ->)|(u & ->)]; exact H. }
    assert (G2 : get_coefficients pre ex endo k b =
              match grid_dims endo, k with
                | Some _, Linear => bind (grid_add ex endo) (fun g =>
                    match grid_dims g with
                    | Some dims => bind (reshape_last b dims) (fun c => Ok (CArr c))
                    | None => Err ExcAttribute end)
                | Some _, Cubic => bind (grid_add ex endo) (fun g =>
                    match grid_dims g with
                    | Some dims => bind (reshape_last b dims) (fun c => bind (pre g c) (fun c => Ok (CArr c)))
                    | None => Err ExcAttribute end)
                | _, _ => Err not_registered end).
    { destruct Hex as [(u & ->)|(u & ->)]; reflexivity. }
    rewrite G2. clear H G2. destruct (grid_dims endo); [|discriminate]. destruct k; [| |discriminate].
    - destruct (grid_add ex endo) as [g|]; [|discriminate]. cbn [bind] in *. destruct (grid_dims g) as [dims|]; [|discriminate].
      destruct (reshape_last a dims) as [a'|] eqn:E; [|discriminate]. cbn [bind] in G. injection G as <-.
      destruct (reshape_same _ _ _ _ Hab E) as (b' & E' & S'). rewrite E'. cbn [bind]. exists a', b'. repeat split; apply S'.
    - destruct (grid_add ex endo) as [g|]; [|discriminate]. cbn [bind] in *. destruct (grid_dims g) as [dims|]; [|discriminate].
      destruct (reshape_last a dims) as [a'|] eqn:E; [|discriminate]. cbn [bind] in G.
      destruct (pre g a') as [c1|] eqn:Ep; [|discriminate]. cbn [bind] in G. injection G as <-.
      destruct (reshape_same _ _ _ _ Hab E) as (b' & E' & S'). rewrite E'. cbn [bind].
      destruct (Hpre g a' b' c1 S' Ep) as (c2 & Ep' & S2). rewrite Ep'. cbn [bind]. exists c1, c2. repeat split; apply S2.
  Qed.

  Lemma ms_link : forall ex endo k x a c m s out, (exists u, ex = GUniform u) \/ (exists u, ex = GNonUniform u) ->
    array_of n_m N n_x x a -> get_coefficients pre ex endo k a = Ok c ->
    eval_ms el ec ex endo k c (repeat m (length s)) s = Ok out -> out = map (the_spline_ms k ex endo x m) s.
  Proof.
    intros ex endo k x a c m s out Hex Ha Hc He.
    destruct (coefs_same ex endo k a _ c Hex (array_nd_of x a Ha) Hc) as (c1 & c2 & -> & E2 & S2).
    assert (G : bind (grid_add ex endo) (fun g => bind (concat_cols (repeat m (length s)) s) (fun x =>
                 match k with Cubic => ec g c1 x | _ => el g c1 x end)) = Ok out).
    { destruct Hex as [(u & ->)|(u & ->)]; unfold eval_ms in He; cbn [arr_coefs] in He;
        (destruct (grid_dims endo); [|discriminate]); destruct k; try discriminate; exact He. }
    assert (G3 : forall q, the_spline_ms k ex endo x m q = match grid_add ex endo with
                   | Ok g => match k with Cubic => cub g c2 (m ++ q) | _ => lin g c2 (m ++ q) end | Err _ => [] end).
    { intros q. unfold the_spline_ms. rewrite E2. destruct Hex as [(u & ->)|(u & ->)]; reflexivity. }
    rewrite (map_ext _ _ G3).
    destruct (grid_add ex endo) as [g|]; [|discriminate]. cbn [bind] in G.
    destruct (concat_cols (repeat m (length s)) s) as [p|] eqn:Ep; [|discriminate]. cbn [bind] in G.
    apply concat_repeat in Ep. subst p.
    destruct k.
    - apply Hlin in G. rewrite G, map_map. apply map_ext. intros p. apply Hlin2, S2.
    - apply Hcub in G. rewrite G, map_map. apply map_ext. intros p. apply Hcub2, S2.
    - apply Hlin in G. rewrite G, map_map. apply map_ext. intros p. apply Hlin2, S2.
  Qed.

  Lemma ijs_link : forall endo k d x a c i j s out, array_of n_m N n_x x a -> get_coefficients pre exo endo k a = Ok c ->
    eval_ijs el ec (dp_node (ex_dp d)) exo endo k c i j s = Ok out ->
    out = map (rule_ijs the_spline the_spline_ms k exo endo d x i j) s.
  Proof.
    intros endo k d x a c i j s out Ha Hc H.
    destruct exo as [|pt|nodes|u|u] eqn:Ex; cbn [eval_ijs] in H.
    2: discriminate H.
    - unfold eval_s in H. unfold get_coefficients in Hc.
      destruct (grid_dims endo) as [dims|] eqn:Ed; [|discriminate]. destruct k; [| |discriminate].
      + destruct (reshape_last a dims) as [c1|] eqn:Er; [|discriminate]. cbn [bind] in Hc. injection Hc as <-. cbn [arr_coefs bind] in H.
        destruct (reshape_same _ _ _ _ (array_nd_of x a Ha) Er) as (c' & E' & S').
        apply Hlin in H. rewrite H. apply map_ext. intros p. unfold rule_ijs, the_spline_ms, get_coefficients. rewrite Ed, E'. apply Hlin2, S'.
      + destruct (nd_item a 0) as [b|] eqn:Eb; [|discriminate]. cbn [bind] in Hc.
        destruct (reshape_last b dims) as [b'|] eqn:Er; [|discriminate]. cbn [bind] in Hc.
        destruct (pre endo b') as [c1|] eqn:Ep; [|discriminate]. cbn [bind] in Hc. injection Hc as <-. cbn [arr_coefs bind] in H.
        destruct (reshape_same _ _ _ _ (page_of_array x a 0 b Ha Eb) Er) as (b2 & E3 & S3). 
        destruct (Hpre endo b' b2 c1 S3 Ep) as (c' & E4 & S4).
        apply Hcub in H. rewrite H. apply map_ext. intros p. unfold rule_ijs, the_spline. rewrite ?Ex, Ed. rewrite E3. cbn [bind]. rewrite E4. apply Hcub2, S4.
    - unfold eval_is in H. unfold get_coefficients in Hc.
      destruct (grid_dims endo) as [dims|] eqn:Ed; [|discriminate]. destruct k; [| |discriminate].
      + destruct (map_res (nd_item a) (seq 0 (hd 0%nat (nd_shape a)))) as [cs|] eqn:Em; [|discriminate]. cbn [bind] in Hc. injection Hc as <-.
        cbn [list_coefs] in H. destruct (nth_error cs j) as [cj|] eqn:Ej; [|discriminate]. cbn [bind] in H.
        apply Hlin in H. rewrite H. apply map_ext. intros p. unfold rule_ijs, the_spline. rewrite ?Ex, Ed. apply Hlin2.
        destruct (map_res_nth _ _ _ Em _ _ Ej) as (j' & E1 & E2).
        assert (j' = j).
        { assert (L : (j < length (seq 0 (hd 0%nat (nd_shape a))))%nat) by (apply nth_error_Some; congruence).
          rewrite (nth_error_nth' _ 0%nat L) in E1. rewrite seq_length in L. rewrite seq_nth in E1 by exact L. injection E1. lia. }
        subst j'. exact (page_of_array x a j cj Ha E2).
      + destruct (map_res _ (seq 0 (hd 0%nat (nd_shape a)))) as [cs|] eqn:Em; [|discriminate]. cbn [bind] in Hc. injection Hc as <-.
        cbn [list_coefs] in H. destruct (nth_error cs j) as [cj|] eqn:Ej; [|discriminate]. cbn [bind] in H.
        destruct (list_spline x a dims endo j cs cj Ha Em Ej) as (c' & E' & S').
        apply Hcub in H. rewrite H. apply map_ext. intros p. unfold rule_ijs, the_spline. rewrite ?Ex, Ed. rewrite E'. apply Hcub2, S'.
    - apply (ms_link (GUniform u) endo k x a c); auto. left. exists u. reflexivity.
    - apply (ms_link (GNonUniform u) endo k x a c); auto. right. exists u. reflexivity.
  Qed.
End Link.

Theorem rule_is_object : forall el ec pre, interpolator el -> interpolator ec -> prefilter pre ->
  forall exo n_m N n_x, exists spline spline_ms, forall endo k d x a c i j s out,
    array_of n_m N n_x x a ->
    get_coefficients pre exo endo k a = Ok c ->
    eval_ijs el ec (dp_node (ex_dp d)) exo endo k c i j s = Ok out ->
    out = map (rule_ijs spline spline_ms k exo endo d x i j) s.
Proof.
  intros el ec pre (lin & H1 & H2) (cub & H3 & H4) Hp exo n_m N n_x.
  exists (the_spline pre lin cub exo N n_x), (the_spline_ms pre lin cub n_m N n_x).
  intros endo k d x a c i j s out. apply ijs_link; assumption.
Qed.

(** A case. *)
Definition first_entry (g : grid) (c : nd) (pts : list (list R)) : res (list (list R)) :=
  Ok (map (fun _ => if Nat.ltb 0 (prodn (nd_shape c)) then [nd_data c 0%nat] else []) pts).
Definition two_pages : nd := {| nd_shape := [2; 1; 1]%nat; nd_data := fun q => INR (S q) |}.
Definition point_grid : grid := GNonUniform {| nu_axes := [[0]]; nu_nodes := Mat 1 1 (fun _ _ => 0) |}.
Lemma tomorrow_case : interpolator first_entry /\ prefilter (fun _ c => Ok c) /\
  array_of 2 1 1 (fun i _ _ => INR (S i)) two_pages /\
  exists c, get_coefficients (fun _ c => Ok c) (GUnstructured (Mat 2 1 (fun i _ => INR i))) point_grid Cubic two_pages = Ok c /\
    eval_ijs first_entry first_entry (fun _ _ => [0]) (GUnstructured (Mat 2 1 (fun i _ => INR i))) point_grid Cubic c 0 1 [[5]] = Ok [[INR 2]].
Proof.
  split; [|split; [|split]].
  - exists (fun g c _ => if Nat.ltb 0 (prodn (nd_shape c)) then [nd_data c 0%nat] else []). split.
    + intros g c pts out H. injection H as <-. reflexivity.
    + intros g c c' p (E & H). rewrite <- E. destruct (Nat.ltb_spec 0 (prodn (nd_shape c))) as [L|L]; [|reflexivity]. rewrite (H _ L). reflexivity.
  - intros g c c' d H E. injection E as <-. exists c'. split; [reflexivity|exact H].
  - split; [reflexivity|]. intros i n k Hi Hn Hk. cbn [nd_data two_pages]. f_equal. f_equal. lia.
  - eexists. split; reflexivity.
Qed.
