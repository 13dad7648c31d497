(** Proofs about policy evaluation and value iteration. *)
From Coq Require Import String Reals List Arith Lia Lra Psatz Bool.
From Verif.Base Require Import Prelude Arrays Sums Norms Ext.
From Verif.Spec Require Import Euler Bellman.
From Verif.Model Require Import Discretization Grids Distributions Processes DecisionRule TimeIteration
  ImprovedTimeIteration ValueIteration.
From Verif.Spec Require Import ValueIteration.
From Verif.Proofs Require Import ProcessProofs TimeIterationProofs ImprovedTimeIterationProofs.
Import ListNotations.
Open Scope R_scope.

Lemma iterate_S : forall A (U : A -> A) n v, iterate U (S n) v = U (iterate U n v).
Proof. intros A U n. induction n as [|n IH]; intros v; [reflexivity|]. cbn [iterate] in *. rewrite <- IH. reflexivity. Qed.

Lemma for_range_sum : forall n (h : nat -> R) a, for_range n (fun j acc => acc + h j) a = a + rsum n h.
Proof.
  intros n h a. apply (for_range_inv (fun j acc => acc = a + rsum j h)); [cbn; lra|].
  intros i acc _ ->. cbn. lra.
Qed.

Lemma acc_loop : forall (n : nat) (c : nat) (h : nat -> nat -> nat -> R) (acc : tensor) i p k,
    for_range n (fun j (acc : tensor) => fun i' p k => if Nat.eqb i' c then acc i' p k + h j p k else acc i' p k) acc i p k
    = if Nat.eqb i c then acc i p k + rsum n (fun j => h j p k) else acc i p k.
Proof.
  intros n c h acc i p k. induction n as [|n IH]; cbn [for_range rsum].
  - destruct (Nat.eqb i c); lra.
  - rewrite IH. destruct (Nat.eqb i c); lra.
Qed.

Lemma update_value_value : forall g val exo s n_x n_v x v dr drv i n k,
    (i < ex_n exo)%nat -> (n < length s)%nat ->
    update_value g val exo s n_x n_v x v dr drv i n k =
    policy_value g val (dp_n (ex_dp exo) 0) (dp_weight (ex_dp exo) i) (dp_node (ex_dp exo) i) (dr i) (drv i)
      (ex_node exo i) (nth n s []) (at_node n_x x i n) (at_node n_v v i n) k.
Proof.
  intros g val exo s n_x n_v x v dr drv i n k Hi Hn. unfold update_value.
  match goal with |- for_range _ ?body _ _ _ _ = ?t =>
    pose proof (for_range_inv (fun c (acc : tensor) => (i < c)%nat /\ acc i n k = t \/ (c <= i)%nat /\ acc i n k = 0)
                 (ex_n exo) body (fun _ _ _ => 0)) as H end.
  destruct H as [[_ H]|[H _]]; [right; split; [lia|reflexivity]| |exact H|lia].
  intros c acc Hc Hacc. cbv beta.
  set (h := fun j n k => dp_weight (ex_dp exo) c j *
     val (ex_node exo c) (nth n s []) (at_node n_x x c n) (at_node n_v v c n) (dp_node (ex_dp exo) c j)
         (nth n (next_states g exo s n_x x c j) []) (dr c j (nth n (next_states g exo s n_x x c j) []))
         (drv c j (nth n (next_states g exo s n_x x c j) [])) k).
  pose proof (acc_loop (dp_n (ex_dp exo) 0) c h acc i n k) as L.
  assert (E : forall A B : tensor, A = B -> A i n k = B i n k) by (intros ? ? ->; reflexivity).
  match goal with |- context [for_range (dp_n (ex_dp exo) 0) ?b acc i n k] =>
    assert (E2 : for_range (dp_n (ex_dp exo) 0) b acc i n k = if Nat.eqb i c then acc i n k + rsum (dp_n (ex_dp exo) 0) (fun j => h j n k) else acc i n k) end.
  { rewrite <- L. apply E. apply for_range_ext. intros j a Hj. reflexivity. }
  rewrite E2. clear E2 L E. destruct (Nat.eqb_spec i c) as [->|Hne].
  - left. split; [lia|]. destruct Hacc as [[Hlt _]|[_ ->]]; [lia|]. rewrite Rplus_0_l.
    unfold policy_value. apply rsum_ext. intros j Hj. unfold h, next_states. cbv beta zeta.
    rewrite nth_map_seq by assumption. reflexivity.
  - destruct Hacc as [[Hlt ->]|[Hle ->]]; [left|right]; split; try reflexivity; lia.
Qed.

Lemma tnorm_distance : forall a b c x y, (0 < a * b * c)%nat ->
    distance_is a b c x y (tnorm a b c (fun i n k => x i n k - y i n k)).
Proof.
  intros a b c x y H. split.
  - intros i n k Hi Hn Hk. apply (tnorm_ge a b c (fun i n k => x i n k - y i n k)); assumption.
  - unfold tnorm. destruct (supnorm_attained (a * b * c) (flatten b c (fun i n k => x i n k - y i n k)) H) as (q & Hq & E).
    destruct (flat_split b c a q Hq) as (A & B & C).
    exists (q / c / b)%nat, ((q / c) mod b)%nat, (q mod c)%nat. repeat (split; [assumption|]). rewrite E. reflexivity.
Qed.

Lemma distance_unique : forall a b c x y e e', distance_is a b c x y e -> distance_is a b c x y e' -> e = e'.
Proof.
  intros a b c x y e e' [H1 (i & n & k & Hi & Hn & Hk & E)] [H2 (i' & n' & k' & Hi' & Hn' & Hk' & E')].
  specialize (H1 _ _ _ Hi' Hn' Hk'). specialize (H2 _ _ _ Hi Hn Hk). lra.
Qed.

Section Evaluation.
  Variable g : list R -> list R -> list R -> list R -> list R.
  Variable val : val_fun.
  Variable exo : dexo.
  Variable s : list (list R).
  Variable n_x n_v : nat.
  Variable interpolate : tensor -> nat -> nat -> list R -> list R.
  Variable x : tensor.
  Variable dr : nat -> nat -> list R -> list R.
  Notation dp := (ex_dp exo).
  Notation N := (length s).
  Notation U := (fun v => update_value g val exo s n_x n_v x v dr (interpolate v)).
  Notation dist v v' := (tnorm (ex_n exo) N n_v (fun i n k => v i n k - v' i n k)).

  Section Contraction.
    Variable beta K : R.
    Hypothesis Hval : discounts n_v beta val.
    Hypothesis Hint : interpolation_lipschitz (ex_n exo) (dp_n dp 0) N n_v K interpolate.
    Hypothesis Hw : forall i, (i < ex_n exo)%nat -> probability (dp_n dp 0) (dp_weight dp i).

    Lemma update_contracts : forall v v' c, 0 <= c ->
        (forall i n k, (i < ex_n exo)%nat -> (n < N)%nat -> (k < n_v)%nat -> Rabs (v i n k - v' i n k) <= c) ->
        forall i n k, (i < ex_n exo)%nat -> (n < N)%nat -> (k < n_v)%nat -> Rabs (U v i n k - U v' i n k) <= beta * (K * c).
    Proof.
      intros v v' c Hc H i n k Hi Hn Hk. cbv beta. rewrite !update_value_value by assumption. unfold policy_value.
      rewrite <- rsum_minus. eapply Rle_trans; [apply rsum_abs|]. destruct (Hw i Hi) as [Hpos Hsum].
      eapply Rle_trans.
      - apply rsum_le with (g := fun j => dp_weight dp i j * (beta * (K * c))). intros j Hj. cbv zeta.
        rewrite <- Rmult_minus_distr_l, Rabs_mult, (Rabs_pos_eq (dp_weight dp i j)) by (apply Hpos; assumption).
        apply Rmult_le_compat_l; [apply Hpos; assumption|]. apply Hval; [assumption|].
        intros q Hq. apply Hint; assumption.
      - rewrite rsum_scal_r, Hsum. lra.
    Qed.

    Lemma beta_K_nonneg_step : forall v v', (0 < ex_n exo * N * n_v)%nat -> dist (U v) (U v') <= beta * K * dist v v'.
    Proof.
      intros v v' Hs. destruct (tnorm_distance _ _ _ (U v) (U v') Hs) as [_ (i & n & k & Hi & Hn & Hk & E)].
      rewrite <- E. rewrite Rmult_assoc. apply update_contracts; try assumption; [apply supnorm_nonneg|].
      intros i' n' k' Hi' Hn' Hk'. apply (tnorm_ge (ex_n exo) N n_v (fun i n k => v i n k - v' i n k)); assumption.
    Qed.

    Lemma dist_nonneg : forall v v', 0 <= dist v v'.
    Proof. intros. apply supnorm_nonneg. Qed.

    Lemma dist_triangle : forall a b c, dist a c <= dist a b + dist b c.
    Proof.
      intros a b c. pose proof (dist_nonneg a b). pose proof (dist_nonneg b c).
      apply tnorm_le; [lra|]. intros i n k Hi Hn Hk.
      pose proof (tnorm_ge (ex_n exo) N n_v (fun i n k => a i n k - b i n k) i n k Hi Hn Hk).
      pose proof (tnorm_ge (ex_n exo) N n_v (fun i n k => b i n k - c i n k) i n k Hi Hn Hk). cbv beta in *.
      replace (a i n k - c i n k) with ((a i n k - b i n k) + (b i n k - c i n k)) by lra.
      eapply Rle_trans; [apply Rabs_triang|]. lra.
    Qed.

    Lemma iterate_contracts : 0 <= beta * K -> (0 < ex_n exo * N * n_v)%nat ->
        forall n a b, dist (iterate U n a) (iterate U n b) <= (beta * K) ^ n * dist a b.
    Proof.
      intros Hb Hs n a b. induction n as [|n IH]; [cbn; lra|]. rewrite !iterate_S.
      eapply Rle_trans; [apply beta_K_nonneg_step; assumption|]. cbn [pow]. rewrite (Rmult_assoc (beta * K) ((beta * K) ^ n)).
      apply Rmult_le_compat_l; assumption.
    Qed.

    Lemma iterate_step : 0 <= beta * K -> (0 < ex_n exo * N * n_v)%nat ->
        forall n v0, dist (iterate U (S n) v0) (iterate U n v0) <= (beta * K) ^ n * dist (U v0) v0.
    Proof. intros Hb Hs n v0. apply (iterate_contracts Hb Hs n (U v0) v0). Qed.

    (** [vs] is the value of the policy at the nodes. *)
    Variable vs : tensor.
    Hypothesis Hfix : forall i n k, (i < ex_n exo)%nat -> (n < N)%nat -> (k < n_v)%nat -> U vs i n k = vs i n k.

    Lemma dist_fix : forall a, dist a (U vs) = dist a vs.
    Proof.
      intros a. apply Rle_antisym; (apply tnorm_le; [apply dist_nonneg|]); intros i n k Hi Hn Hk.
      - cbv beta. rewrite Hfix by assumption. apply (tnorm_ge (ex_n exo) N n_v (fun i n k => a i n k - vs i n k)); assumption.
      - rewrite <- (Hfix i n k Hi Hn Hk). apply (tnorm_ge (ex_n exo) N n_v (fun i n k => a i n k - U vs i n k)); assumption.
    Qed.

    Lemma iterate_error : 0 <= beta * K -> (0 < ex_n exo * N * n_v)%nat ->
        forall n v0, dist (iterate U n v0) vs <= (beta * K) ^ n * dist v0 vs.
    Proof.
      intros Hb Hs n v0. induction n as [|n IH]; [cbn; lra|]. rewrite iterate_S, <- dist_fix.
      eapply Rle_trans; [apply beta_K_nonneg_step; assumption|]. cbn [pow]. rewrite (Rmult_assoc (beta * K) ((beta * K) ^ n)).
      apply Rmult_le_compat_l; assumption.
    Qed.

    Lemma stored_error : 0 <= beta * K < 1 -> (0 < ex_n exo * N * n_v)%nat ->
        forall v, dist v vs <= dist (U v) v / (1 - beta * K).
    Proof.
      intros [Hb Hb1] Hs v. apply Rmult_le_reg_r with (1 - beta * K); [lra|]. unfold Rdiv.
      rewrite Rmult_assoc, Rinv_l, Rmult_1_r by lra.
      pose proof (beta_K_nonneg_step v vs Hs) as C. rewrite dist_fix in C.
      pose proof (dist_triangle v (U v) vs) as T.
      assert (Sy : dist v (U v) = dist (U v) v).
      { apply Rle_antisym; (apply tnorm_le; [apply dist_nonneg|]); intros i n k Hi Hn Hk; rewrite Rabs_minus_sym.
        - apply (tnorm_ge (ex_n exo) N n_v (fun i n k => U v i n k - v i n k)); assumption.
        - apply (tnorm_ge (ex_n exo) N n_v (fun i n k => v i n k - U v i n k)); assumption. }
      cbv beta in *. lra.
    Qed.
  End Contraction.

  Lemma ep_loop_run : forall tol fuel it err v0 stored,
      let r := ep_loop g val exo s n_x n_v interpolate x dr tol fuel it err v0 stored in
      exists q, (q <= fuel)%nat /\ ep_iterations r = (it + q)%nat /\
        match q with
        | O => ep_values r = stored /\ ep_err r = err
        | S q' => tol < err /\ ep_values r = Some (iterate U q' v0) /\ ep_err r = dist (iterate U (S q') v0) (iterate U q' v0) /\
                  forall c, (c < q')%nat -> tol < dist (iterate U (S c) v0) (iterate U c v0)
        end /\ ((q < fuel)%nat -> ep_err r <= tol).
  Proof.
    intros tol fuel. induction fuel as [|fuel IH]; intros it err v0 stored; cbv zeta.
    - exists 0%nat. cbn. repeat split; lia.
    - cbn [ep_loop]. destruct (Rlt_dec tol err) as [Hlt|Hge].
      + destruct (IH (S it) (dist (U v0) v0) (U v0) (Some v0)) as (q & Hq & Hit & Hcase & Hend). cbv zeta in *.
        exists (S q). split; [lia|]. split; [rewrite Hit; lia|]. split; [|intros; apply Hend; lia].
        destruct q as [|q'].
        * destruct Hcase as [-> ->]. split; [assumption|]. split; [reflexivity|]. split; [reflexivity|]. intros; lia.
        * destruct Hcase as (Hl & -> & -> & Hc). split; [assumption|]. split; [reflexivity|]. split; [reflexivity|].
          intros [|c] Hcc; [exact Hl|]. apply Hc. lia.
      + exists 0%nat. cbn. repeat split; try lia; intros; lra.
  Qed.

  Lemma evaluate_policy_run : forall tol maxit v0 r, tol < 10 -> (0 < maxit)%nat ->
      evaluate_policy g val exo s n_x n_v interpolate x dr tol maxit v0 = Ok r ->
      exists q, (q < maxit)%nat /\ ep_iterations r = S q /\ ep_values r = Some (iterate U q v0) /\
        distance_is (ex_n exo) N n_v (iterate U (S q) v0) (iterate U q v0) (ep_err r) /\
        (forall c, (c < q)%nat -> exists e, distance_is (ex_n exo) N n_v (iterate U (S c) v0) (iterate U c v0) e /\ tol < e) /\
        ((S q < maxit)%nat -> ep_err r <= tol).
  Proof.
    intros tol maxit v0 r Ht Hm H. unfold evaluate_policy in H.
    destruct (Nat.eqb_spec (ex_n exo * N * n_v) 0) as [E|E].
    - destruct (Nat.eqb_spec maxit 0); [lia|]. destruct (Rlt_dec tol 10); [|lra]. discriminate.
    - cbn [andb] in H. injection H as <-.
      destruct (ep_loop_run tol maxit 0 10 v0 None) as (q & Hq & Hit & Hcase & Hend). cbv zeta in *.
      destruct q as [|q'].
      + destruct Hcase as [_ He]. exfalso. specialize (Hend Hm). lra.
      + destruct Hcase as (_ & Hv & He & Hc). exists q'. split; [lia|]. split; [exact Hit|]. split; [exact Hv|].
        split; [rewrite He; apply tnorm_distance; lia|]. split; [|intros; apply Hend; lia].
        intros c Hcc. eexists. split; [apply tnorm_distance; lia|]. apply Hc. assumption.
  Qed.

  Lemma evaluate_policy_stops : forall beta K tol v0,
      discounts n_v beta val ->
      interpolation_lipschitz (ex_n exo) (dp_n dp 0) N n_v K interpolate ->
      (forall i, (i < ex_n exo)%nat -> probability (dp_n dp 0) (dp_weight dp i)) ->
      0 <= beta * K < 1 -> 0 < tol < 10 -> (0 < ex_n exo * N * n_v)%nat ->
      exists m, forall maxit, (m < maxit)%nat ->
        exists r, evaluate_policy g val exo s n_x n_v interpolate x dr tol maxit v0 = Ok r /\ ep_err r <= tol /\ (ep_iterations r <= m)%nat.
  Proof.
    intros beta K tol v0 Hval Hint Hw Hb Ht Hs.
    set (d := dist (U v0) v0). assert (Hd : 0 <= d) by apply supnorm_nonneg.
    destruct (pow_lt_1_zero (beta * K) ltac:(rewrite Rabs_pos_eq; lra) (tol / (d + 1)) ltac:(apply Rdiv_lt_0_compat; lra)) as (m & Hm).
    exists (S m). intros maxit Hmax.
    assert (Hok : exists r, evaluate_policy g val exo s n_x n_v interpolate x dr tol maxit v0 = Ok r).
    { unfold evaluate_policy. destruct (Nat.eqb_spec (ex_n exo * N * n_v) 0); [lia|]. cbn [andb]. eexists. reflexivity. }
    destruct Hok as [r Hr]. exists r. split; [assumption|].
    destruct (evaluate_policy_run tol maxit v0 r ltac:(lra) ltac:(lia) Hr) as (q & Hq & Hit & Hv & Hd' & Hc & Hend).
    assert (Hqm : (q <= m)%nat).
    { destruct (le_lt_dec q m) as [|Hgt]; [assumption|exfalso].
      destruct (Hc m Hgt) as (e & He & Hte).
      pose proof (distance_unique _ _ _ _ _ _ _ He (tnorm_distance _ _ _ _ _ Hs)) as ->.
      pose proof (iterate_step beta K Hval Hint Hw (proj1 Hb) Hs m v0) as B. fold d in B.
      specialize (Hm m (le_n m)). rewrite Rabs_pos_eq in Hm by (apply pow_le; lra).
      assert ((beta * K) ^ m * d <= tol / (d + 1) * d) by (apply Rmult_le_compat_r; lra).
      assert (tol / (d + 1) * d <= tol).
      { apply Rmult_le_reg_r with (d + 1); [lra|]. replace (tol / (d + 1) * d * (d + 1)) with (tol * d) by (field; lra). nra. }
      lra. }
    split; [apply Hend; lia|lia].
  Qed.
End Evaluation.

(** * Value iteration *)

Lemma choice_total_value : forall g u exo beta V i s x,
    choice_total g u exo beta V i s x =
    u (ex_node exo i) s x + beta * rsum (dp_n (ex_dp exo) i) (fun j =>
      dp_weight (ex_dp exo) i j * V j (g (ex_node exo i) s x (dp_node (ex_dp exo) i j))).
Proof.
  intros. unfold choice_total. cbv zeta.
  rewrite (for_range_sum _ (fun j => dp_weight (ex_dp exo) i j * V j (g (ex_node exo i) s x (dp_node (ex_dp exo) i j)))). lra.
Qed.

Lemma choice_value_total : forall g u exo beta call V i s x,
    (forall j S, (j < dp_n (ex_dp exo) i)%nat -> exists l, call j S = Ok (V j S :: l)) ->
    choice_value g u exo beta call i s x = Ok (choice_total g u exo beta V i s x).
Proof.
  intros g u exo beta call V i s x H. unfold choice_value, choice_total. cbv zeta.
  assert (E : forall n, (n <= dp_n (ex_dp exo) i)%nat ->
    for_range_res n (fun j acc => bind (call j (g (ex_node exo i) s x (dp_node (ex_dp exo) i j))) (fun W =>
       match W with [] => Err ExcIndex | v :: _ => Ok (acc + dp_weight (ex_dp exo) i j * v) end)) 0
    = Ok (for_range n (fun j acc => acc + dp_weight (ex_dp exo) i j * V j (g (ex_node exo i) s x (dp_node (ex_dp exo) i j))) 0)).
  { induction n as [|n IH]; intros Hn; [reflexivity|]. cbn [for_range_res for_range]. rewrite IH by lia. cbn [bind].
    destruct (H n (g (ex_node exo i) s x (dp_node (ex_dp exo) i n)) ltac:(lia)) as [l ->]. reflexivity. }
  rewrite (E _ (le_n _)). reflexivity.
Qed.

(** Over a Markov chain the index given to the value rule is that of the next state. *)
Lemma choice_markov : forall g u c beta call W i s x,
    (forall j S, (j < ncol (snd c))%nat -> exists l, call j S = Ok (W (row (fst c) j) S :: l)) ->
    choice_value g u (mc_exo c) beta call i s x =
    Ok (bellman g u beta (ncol (snd c)) (mget (snd c) i) (row (fst c)) W (row (fst c) i) s x).
Proof.
  intros g u c beta call W i s x H.
  rewrite (choice_value_total g u (mc_exo c) beta call (fun j => W (row (fst c) j)) i s x H), choice_total_value. reflexivity.
Qed.

(** With iid shocks the rule does not depend on the exogenous index. *)
Lemma choice_iid : forall g u d dim beta call W i s x,
    (forall j S, exists l, call j S = Ok (W S :: l)) ->
    choice_value g u (iid_exo d dim) beta call i s x =
    Ok (bellman g u beta (iid_n d) (iid_weight d) (iid_point d) (fun _ => W) (repeat 0 dim) s x).
Proof.
  intros g u d dim beta call W i s x H.
  rewrite (choice_value_total g u (iid_exo d dim) beta call (fun _ => W) i s x (fun j S _ => H j S)), choice_total_value. reflexivity.
Qed.

(** Two nodes 0 and 1; from node 0 the only quadrature point is 1, where the value is 1. *)
Definition shift_gdp : gdp :=
  {| gdp_nodes := Mat 2 1 (fun i _ => INR i); gdp_k := 1; gdp_inodes := fun i _ => [1]; gdp_iweights := fun _ _ => 1 |}.
Definition first_coord (m s : list R) : R := hd 0 m.

Lemma choice_gdp_refuted :
    let call := fun j S => Ok [first_coord (row (gdp_nodes shift_gdp) j) S] in
    choice_value (fun _ s _ _ => s) (fun _ _ _ => 0) (gdp_exo shift_gdp) 1 call 0 [0] [0] = Ok 0 /\
    bellman (fun _ s _ _ => s) (fun _ _ _ => 0) 1 (gdp_k shift_gdp) (gdp_iweights shift_gdp 0) (gdp_inodes shift_gdp 0)
            first_coord (row (gdp_nodes shift_gdp) 0) [0] [0] = 1.
Proof.
  cbv zeta. split.
  - rewrite (choice_value_total _ _ _ _ _ (fun j => first_coord (row (gdp_nodes shift_gdp) j))).
    + rewrite choice_total_value. unfold first_coord. cbn. f_equal. lra.
    + intros j S _. exists []. reflexivity.
  - unfold bellman, first_coord. cbn. lra.
Qed.

Section VI.
  Variable g : list R -> list R -> list R -> list R -> list R.
  Variable u : list R -> list R -> list R -> R.
  Variable val : val_fun.
  Variable exo : dexo.
  Variable s : list (list R).
  Variable n_x : nat.
  Variable beta v0 : R.
  Variable lb ub : list R -> list R -> list R.
  Variable interp_x interp_v : tensor -> nat -> nat -> list R -> list R.
  Variable call_v : tensor -> nat -> list R -> R.
  Variable node_x node_v : tensor -> tensor.
  Variable minimize : (list R -> R) -> list R -> list (R * R) -> list R.
  Notation N := (length s).
  Notation loop := (vi_loop g u val exo s n_x beta v0 lb ub interp_x interp_v call_v node_x node_v minimize).
  Notation vi := (value_iteration g u val exo s n_x beta v0 lb ub interp_x interp_v call_v node_x node_v minimize).
  Notation impr := (improve g u exo s n_x beta lb ub call_v minimize).
  Notation evalp := (evaluate_policy g val exo s n_x 1 interp_v).

  Definition vi_pass (c0 w c : tensor) (v : nat -> nat -> R) (ev ex : R) : Prop :=
    (exists start e, evalp (node_x c0) (interp_x c0) ep_tol ep_maxit start = Ok e /\ ep_values e = Some w) /\
    c = impr w c0 /\
    v = (fun i n => choice_total g u exo beta (call_v w) i (nth n s []) (at_node n_x c i n)) /\
    (0 < ex_n exo * N * n_x)%nat /\
    ex = tnorm (ex_n exo) N n_x (fun i n k => c i n k - c0 i n k) /\
    ev = tnorm (ex_n exo) N 1 (fun i n k => v i n - node_v w i n k).

  Lemma vi_loop_run : forall tol fuel it ev ex c0 w last last' it' ev' ex',
      loop tol fuel it ev ex c0 w last = Ok (last', it', ev', ex') ->
      exists q, (q <= fuel)%nat /\ it' = (it + q)%nat /\
        match q with
        | O => last' = last /\ ev' = ev /\ ex' = ex
        | S _ => (tol < ev \/ vi_tol_x < ex) /\ exists p w' c v, last' = Some (c, v) /\ vi_pass p w' c v ev' ex'
        end /\ ((q < fuel)%nat -> ev' <= tol /\ ex' <= vi_tol_x).
  Proof.
    intros tol fuel. induction fuel as [|fuel IH]; intros it ev ex c0 w last last' it' ev' ex' H; cbn [vi_loop] in H.
    - injection H as <- <- <- <-. exists 0%nat. repeat split; lia.
    - match type of H with (if ?b then _ else _) = _ => destruct b eqn:Eb end.
      + match type of H with bind ?L _ = _ => destruct L as [e|x] eqn:Ee end; [|discriminate]. cbn [bind] in H.
        destruct (ep_values e) as [w'|] eqn:Ew; [|discriminate].
        destruct (Nat.eqb_spec (ex_n exo * N * n_x) 0) as [Ez|Ez]; [discriminate|].
        apply IH in H. destruct H as (q & Hq & Hit & Hcase & Hend).
        exists (S q). split; [lia|]. split; [lia|]. split; [|intros; apply Hend; lia]. split.
        * destruct (Rlt_dec tol ev); [left; assumption|]. destruct (Rlt_dec vi_tol_x ex); [right; assumption|discriminate].
        * destruct q as [|q'].
          -- destruct Hcase as (-> & -> & ->). do 4 eexists. split; [reflexivity|]. unfold vi_pass.
             split; [do 2 eexists; split; [exact Ee|exact Ew]|]. repeat split; lia.
          -- destruct Hcase as [_ Hp]. exact Hp.
      + injection H as <- <- <- <-. exists 0%nat. split; [lia|]. split; [lia|]. split; [repeat split|]. intros _.
        destruct (Rlt_dec tol ev); [discriminate|]. destruct (Rlt_dec vi_tol_x ex); [discriminate|]. lra.
  Qed.

  Lemma value_iteration_run : forall tol maxit x0 r, vi tol maxit x0 = Ok r ->
      exists c0 w, vi_pass c0 w (vi_controls r) (vi_values r) (vi_v_err r) (vi_x_err r) /\
        (1 <= vi_iterations r <= maxit)%nat /\
        ((vi_iterations r < maxit)%nat -> vi_v_err r <= tol /\ vi_x_err r <= vi_tol_x) /\
        (vi_x_converged r = true <-> vi_x_err r < vi_tol_x) /\
        (vi_v_converged r = true <-> vi_v_err r < vi_tol_v).
  Proof.
    intros tol maxit x0 r H. unfold value_iteration in H.
    match type of H with bind ?L _ = _ => destruct L as [[[[last it] ev] ex]|e] eqn:E end; [|discriminate].
    cbn [bind] in H. destruct last as [[c v]|]; [|discriminate]. injection H as <-. cbn.
    apply vi_loop_run in E. destruct E as (q & Hq & -> & Hcase & Hend). destruct q as [|q]; [destruct Hcase; discriminate|].
    destruct Hcase as (_ & p & w & c' & v' & El & Hp). injection El as <- <-. exists p, w. split; [exact Hp|].
    split; [lia|]. split; [intros; apply Hend; lia|].
    split; [destruct (Rlt_dec ex vi_tol_x)|destruct (Rlt_dec ev vi_tol_v)]; split; intros; try assumption; try reflexivity; try discriminate; contradiction.
  Qed.

  Section Bellman.
    Variable W : tensor -> list R -> list R -> R.
    Hypothesis HW : index_is_point exo call_v W.

    Lemma choice_bellman : forall w i p x, (i < ex_n exo)%nat ->
        choice_total g u exo beta (call_v w) i p x =
        bellman g u beta (dp_n (ex_dp exo) i) (dp_weight (ex_dp exo) i) (dp_node (ex_dp exo) i) (W w) (ex_node exo i) p x.
    Proof.
      intros w i p x Hi. rewrite choice_total_value. unfold bellman. f_equal. f_equal. apply rsum_ext. intros j Hj.
      rewrite (HW w i j) by assumption. reflexivity.
    Qed.

    Lemma map_nth_seq : forall (l : list R), map (fun k => nth k l 0) (seq 0 (length l)) = l.
    Proof.
      intros l. apply (nth_ext _ _ 0 0); [rewrite map_length, seq_length; reflexivity|].
      intros n Hn. rewrite map_length, seq_length in Hn. rewrite nth_map_seq by assumption. reflexivity.
    Qed.

    Lemma value_iteration_bellman : forall tol maxit x0 r, vi tol maxit x0 = Ok r ->
        exists c0 w,
          (exists start e, evalp (node_x c0) (interp_x c0) ep_tol ep_maxit start = Ok e /\ ep_values e = Some w) /\
          bellman_values g u beta exo s n_x W w (vi_controls r) (vi_values r) /\
          distance_is (ex_n exo) N n_x (vi_controls r) c0 (vi_x_err r) /\
          distance_is (ex_n exo) N 1 (fun i n _ => vi_values r i n) (node_v w) (vi_v_err r) /\
          (maximises g u beta exo s W lb ub minimize ->
           (forall i n, (i < ex_n exo)%nat -> (n < N)%nat ->
              length (lb (ex_node exo i) (nth n s [])) = n_x /\ length (ub (ex_node exo i) (nth n s [])) = n_x) ->
           greedy g u beta exo s n_x W lb ub w (vi_controls r)).
    Proof.
      intros tol maxit x0 r H. destruct (value_iteration_run tol maxit x0 r H) as (c0 & w & Hp & _).
      destruct Hp as (Hev & Hc & Hv & Hs & Hx & He). exists c0, w. split; [assumption|].
      assert (Hs1 : (0 < ex_n exo * N * 1)%nat) by nia.
      split; [|split; [|split]].
      - intros i n Hi Hn. rewrite Hv. apply choice_bellman. assumption.
      - rewrite Hx. apply tnorm_distance. assumption.
      - rewrite He. apply (tnorm_distance _ _ _ (fun i n _ => vi_values r i n) (node_v w) Hs1).
      - intros Hmin Hbox i n Hi Hn. cbv zeta. destruct (Hbox i n Hi Hn) as (Hl & Hu).
        rewrite Hc. set (m := ex_node exo i) in *. set (p := nth n s []) in *. set (b := combine (lb m p) (ub m p)) in *.
        set (obj := fun xx => - choice_total g u exo beta (call_v w) i p xx).
        destruct (Hmin w i n Hi Hn obj (at_node n_x c0 i n)) as [Hin Hle];
          [intros y; unfold obj; rewrite (choice_bellman w i p y Hi); reflexivity|]. fold m p b in Hin, Hle.
        assert (E : at_node n_x (impr w c0) i n = minimize obj (at_node n_x c0 i n) b).
        { etransitivity; [|apply map_nth_seq].
          replace (length (minimize obj (at_node n_x c0 i n) b)) with n_x; [reflexivity|].
          clear - Hin Hl Hu. unfold in_box in Hin. apply Forall2_len in Hin. rewrite <- Hin. subst b. rewrite combine_length, Hl, Hu. symmetry. apply Nat.min_id. }
        rewrite E. split; [assumption|]. intros y Hy. specialize (Hle y Hy). lra.
    Qed.
  End Bellman.

  Lemma value_iteration_zero : forall tol x0, vi tol 0 x0 = Err ExcName.
  Proof. reflexivity. Qed.
End VI.

(** Felicity x, value x + V'/2, controls in [0, 5e-7], calibrated at 0. *)
Definition tiny_u (m s x : list R) : R := hd 0 x.
Definition tiny_val : val_fun := fun m s x v M S X V k => hd 0 x + hd 0 V / 2.
Definition tiny_lb (m s : list R) : list R := [0].
Definition tiny_ub (m s : list R) : list R := [5 / 10000000].
Definition top (f : list R -> R) (x : list R) (b : list (R * R)) : list R := map snd b.
Definition tiny_run (maxit : nat) : res vi_result :=
  value_iteration (fun _ s _ _ => s) tiny_u tiny_val one_exo [[0%R]] 1 (1/2) 0 tiny_lb tiny_ub const_ip const_ip
    (fun w j _ => w j 0%nat 0%nat) (fun x => x) (fun x => x) top (1 / 1000000) maxit [0].

Lemma tiny_eval : forall maxit x dr, (0 < maxit)%nat -> x 0%nat 0%nat 0%nat = 0 ->
    exists e, evaluate_policy (fun _ s _ _ => s) tiny_val one_exo [[0%R]] 1 1 const_ip x dr ep_tol maxit (fun _ _ k => nth k [0] 0) = Ok e /\
      ep_values e = Some (fun _ _ k => nth k [0] 0).
Proof.
  intros [|fuel] x dr Hm Hx; [lia|]. unfold evaluate_policy.
  replace (Nat.eqb (ex_n one_exo * length [[0%R]] * 1) 0) with false by reflexivity. cbn [andb]. eexists. split; [reflexivity|].
  cbn [ep_loop].
  destruct (Rlt_dec ep_tol 10) as [_|H]; [|exfalso; apply H; unfold ep_tol; lra].
  destruct fuel as [|fuel']; [reflexivity|]. cbn [ep_loop].
  destruct (Rlt_dec ep_tol _) as [H|_]; [exfalso|reflexivity].
  change (length [[0%R]]) with 1%nat in H. change (ex_n one_exo) with 1%nat in H. rewrite tnorm_one in H.
  rewrite update_value_value in H by (cbn; lia). unfold policy_value, tiny_val in H. cbn in H. rewrite Hx in H.
  match type of H with _ < Rabs ?e => replace e with 0 in H by lra end. rewrite Rabs_R0 in H. unfold ep_tol in H. lra.
Qed.

Lemma flags_refuted : forall maxit, (2 <= maxit)%nat ->
    exists r, tiny_run maxit = Ok r /\ (vi_iterations r < maxit)%nat /\ vi_v_err r <= 1 / 1000000 /\ vi_x_err r <= vi_tol_x /\
      vi_v_converged r = false.
Proof.
  intros [|[|maxit]] Hm; [lia|lia|]. unfold tiny_run, value_iteration.
  set (fuel := S maxit). cbn [vi_loop].
  destruct (Rlt_dec (1 / 1000000) 100) as [_|H]; [|exfalso; apply H; lra]. cbn [orb].
  change (Nat.ltb 2 1) with false. cbv iota.
  destruct (tiny_eval ep_maxit (fun _ _ k => nth k [0] 0) (const_ip (fun _ _ k => nth k [0] 0)) ltac:(unfold ep_maxit; lia) eq_refl) as (e & Ee & Ew).
  rewrite Ee. cbn [bind]. rewrite Ew.
  replace (Nat.eqb (ex_n one_exo * length [[0%R]] * 1) 0) with false by reflexivity.
  change (length [[0%R]]) with 1%nat. change (ex_n one_exo) with 1%nat. rewrite !tnorm_one.
  match goal with |- context [vi_loop _ _ _ _ _ _ _ _ _ _ _ _ _ _ _ _ _ fuel 1 (Rabs ?a) (Rabs ?b)] =>
    assert (Ea : Rabs a = 5 / 10000000); [|assert (Eb : Rabs b = 5 / 10000000)] end.
  - rewrite choice_total_value. unfold tiny_u, improve, tiny_lb, tiny_ub, top. cbn. rewrite Rabs_pos_eq; lra.
  - unfold improve, tiny_lb, tiny_ub, top. cbn. rewrite Rabs_pos_eq; lra.
  - rewrite Ea, Eb. unfold fuel. cbn [vi_loop].
    destruct (Rlt_dec (1 / 1000000) (5 / 10000000)) as [H|_]; [exfalso; lra|].
    destruct (Rlt_dec vi_tol_x (5 / 10000000)) as [H|_]; [exfalso; unfold vi_tol_x in H; lra|]. cbn [orb bind].
    eexists. split; [reflexivity|]. cbn. split; [lia|]. split; [lra|]. split; [unfold vi_tol_x; lra|].
    destruct (Rlt_dec (5 / 10000000) vi_tol_v) as [H|_]; [unfold vi_tol_v in H; lra|reflexivity].
Qed.

Lemma value_iteration_flags :
  forall g u val exo s n_x beta v0 lb ub interp_x interp_v call_v node_x node_v minimize tol maxit x0 r,
    value_iteration g u val exo s n_x beta v0 lb ub interp_x interp_v call_v node_x node_v minimize tol maxit x0 = Ok r ->
    (1 <= vi_iterations r <= maxit)%nat /\
    ((vi_iterations r < maxit)%nat -> vi_v_err r <= tol /\ vi_x_err r <= 1/100000) /\
    (vi_x_converged r = true <-> vi_x_err r < 1/100000) /\
    (vi_v_converged r = true <-> vi_v_err r < 1/10000000).
Proof. intros until r. intros H. apply value_iteration_run in H. destruct H as (c0 & w & _ & H). exact H. Qed.

Lemma value_iteration_small_tol :
  forall g u val exo s n_x beta v0 lb ub interp_x interp_v call_v node_x node_v minimize tol maxit x0 r,
    value_iteration g u val exo s n_x beta v0 lb ub interp_x interp_v call_v node_x node_v minimize tol maxit x0 = Ok r ->
    (vi_iterations r < maxit)%nat -> tol < 1/10000000 -> vi_x_err r <> 1/100000 ->
    vi_x_converged r = true /\ vi_v_converged r = true.
Proof.
  intros until r. intros H Hit Ht Hx. apply value_iteration_flags in H. destruct H as (_ & H & Hc1 & Hc2).
  destruct (H Hit). split; [apply Hc1|apply Hc2]; lra.
Qed.
