(** Solutions of Bellman's equation exist, and value iteration, which improves policies, tends to them. *)
From Coq Require Import String Reals List Arith Bool Lia Lra.
From Verif.Base Require Import Prelude Arrays Norms Sums Ext Banach.
From Verif.Spec Require Import Euler Bellman Convergence.
From Verif.Model Require Import Processes DecisionRule TimeIteration ImprovedTimeIteration ValueIteration.
From Verif.Spec Require Import ValueIteration.
From Verif.Proofs Require Import ProcessProofs TimeIterationProofs ImprovedTimeIterationProofs ValueIterationProofs ViConvergence.
Import ListNotations.
Open Scope R_scope.

(** A contraction of arrays of shape (a, b, 1) leaves some array unchanged. *)
Lemma tensor_fixed : forall a b (T : tensor -> tensor) lam, lam < 1 ->
    (forall x y e, 0 <= e -> within a b 1 x y e -> within a b 1 (T x) (T y) (lam * e)) ->
    exists x, forall i n, (i < a)%nat -> (n < b)%nat -> T x i n 0%nat = x i n 0%nat.
Proof.
  intros a b T lam Hlam HT.
  set (cur := fun (z : nat * nat -> R) => (fun i n (_ : nat) => z (i, n)) : tensor).
  set (T' := fun z => fun q : nat * nat => T (cur z) (fst q) (snd q) 0%nat).
  set (inI := fun q : nat * nat => andb (Nat.ltb (fst q) a) (Nat.ltb (snd q) b)).
  set (C := fun z z' e => 0 <= e /\ within a b 1 (cur z) (cur z') e).
  assert (HI : forall i n, inI (i, n) = true <-> (i < a /\ n < b)%nat).
  { intros i n. unfold inI. cbn [fst snd]. rewrite andb_true_iff, !Nat.ltb_lt. tauto. }
  destruct (banach (nat * nat) inI C 1) with (T := T') (lam := Rmax 0 lam) (x0 := fun _ : nat * nat => 0)
    (D := tnorm a b 1 (fun i n k => T (cur (fun _ => 0)) i n k - 0)) as (z & Hz).
  - intros x y e (_ & H) (i, n) Hq. apply HI in Hq. apply (H i n 0%nat); lia.
  - intros x y e He H. split; [lra|]. intros i n k Hi Hn Hk. unfold cur. rewrite Rmult_1_l. apply H. apply HI. lia.
  - split; [apply Rmax_l|apply Rmax_lub_lt; lra].
  - intros x y e (He & H). split; [apply Rmult_le_pos; [apply Rmax_l|exact He]|].
    intros i n k Hi Hn Hk. unfold cur at 1 2. unfold T'. cbn [fst snd].
    eapply Rle_trans; [apply (HT _ _ e He H i n 0%nat); [assumption..|lia]|].
    apply Rmult_le_compat_r; [exact He|apply Rmax_r].
  - apply supnorm_nonneg.
  - split; [apply supnorm_nonneg|]. intros i n k Hi Hn Hk. unfold cur at 1 3. unfold T'. cbn [fst snd].
    apply (tnorm_ge a b 1 (fun i n k => T (cur (fun _ => 0)) i n k - 0) i n 0%nat); [assumption..|lia].
  - exists (cur z). intros i n Hi Hn. apply (Hz (i, n)). apply HI. tauto.
Qed.

Theorem bellman_exists : forall g u exo s beta W K lb ub minimize,
    0 <= beta -> beta * K < 1 -> value_rule_lipschitz exo (length s) W K ->
    (forall i, (i < ex_n exo)%nat -> probability (dp_n (ex_dp exo) i) (dp_weight (ex_dp exo) i)) ->
    maximises g u beta exo s W lb ub minimize ->
    exists vs, bellman_solution g u beta exo s W lb ub vs.
Proof.
  intros g u exo s beta W K lb ub minimize Hb HK HL Hw Hmax.
  set (box := fun i n => combine (lb (ex_node exo i) (nth n s [])) (ub (ex_node exo i) (nth n s []))).
  set (best := fun (v : tensor) i n => minimize (fun y => - objective_at g u beta exo s W v i n y) [] (box i n)).
  set (T := fun (v : tensor) => (fun i n (_ : nat) => objective_at g u beta exo s W v i n (best v i n)) : tensor).
  assert (HB : forall v i n, (i < ex_n exo)%nat -> (n < length s)%nat -> in_box (box i n) (best v i n) /\
            forall y, in_box (box i n) y -> objective_at g u beta exo s W v i n y <= objective_at g u beta exo s W v i n (best v i n)).
  { intros v i n Hi Hn. destruct (Hmax v i n Hi Hn (fun y => - objective_at g u beta exo s W v i n y) [] ltac:(reflexivity)) as (A & B).
    split; [exact A|]. intros y Hy. specialize (B y Hy). unfold best, box, objective_at in *. lra. }
  destruct (tensor_fixed (ex_n exo) (length s) T (beta * K) HK) as (vs & Hvs).
  - intros x y e He H i n k Hi Hn Hk. unfold T. destruct (HB x i n Hi Hn) as (A1 & A2). destruct (HB y i n Hi Hn) as (B1 & B2).
    apply (max_close (objective_at g u beta exo s W x i n) (objective_at g u beta exo s W y i n) (box i n)); eauto.
    intros z. apply (objective_close g u exo s beta K W Hb HL Hw); assumption.
  - exists vs. intros i n Hi Hn box0 J. destruct (HB vs i n Hi Hn) as (A1 & A2).
    rewrite <- (Hvs i n Hi Hn). unfold T. split; [exists (best vs i n); split; [exact A1|reflexivity]|exact A2].
Qed.

Theorem policy_value_exists : forall g u exo s n_x beta W K,
    0 <= beta -> beta * K < 1 -> value_rule_lipschitz exo (length s) W K ->
    (forall i, (i < ex_n exo)%nat -> probability (dp_n (ex_dp exo) i) (dp_weight (ex_dp exo) i)) ->
    forall c, exists vc, value_of_controls g u beta exo s n_x W c vc.
Proof.
  intros g u exo s n_x beta W K Hb HK HL Hw c.
  destruct (tensor_fixed (ex_n exo) (length s) (fun v i n _ => objective_at g u beta exo s W v i n (at_node n_x c i n)) (beta * K) HK) as (v & Hv).
  - intros x y e He H i n k Hi Hn Hk. apply (objective_close g u exo s beta K W Hb HL Hw); assumption.
  - exists v. intros i n Hi Hn. symmetry. apply Hv; assumption.
Qed.

(** A bound that improves whenever it holds. *)
Lemma max_principle : forall a b (f : nat -> nat -> R) beta del, 0 <= beta < 1 -> 0 <= del ->
    (forall c, 0 <= c -> (forall i n, (i < a)%nat -> (n < b)%nat -> f i n <= c) ->
       forall i n, (i < a)%nat -> (n < b)%nat -> f i n <= beta * c + del) ->
    forall i n, (i < a)%nat -> (n < b)%nat -> f i n <= del / (1 - beta).
Proof.
  intros a b f beta del Hb Hd H i n Hi Hn.
  destruct (tnorm_distance a b 1 (fun i n _ => Rmax 0 (f i n)) (fun _ _ _ => 0) ltac:(nia)) as (A & i1 & n1 & k1 & Hi1 & Hn1 & Hk1 & E).
  set (d := tnorm _ _ _ _) in *. cbv beta in E. rewrite Rminus_0_r, Rabs_pos_eq in E by apply Rmax_l.
  assert (P : 0 <= d) by (rewrite <- E; apply Rmax_l).
  assert (Q : forall i n, (i < a)%nat -> (n < b)%nat -> f i n <= d).
  { intros i2 n2 H1 H2. specialize (A i2 n2 0%nat H1 H2 ltac:(lia)). cbv beta in A. rewrite Rminus_0_r, Rabs_pos_eq in A by apply Rmax_l.
    eapply Rle_trans; [apply Rmax_r|exact A]. }
  pose proof (H d P Q i1 n1 Hi1 Hn1) as Q1.
  assert (D : d <= beta * d + del).
  { rewrite <- E at 1. apply Rmax_lub; [|exact Q1]. assert (0 <= beta * d) by (apply Rmult_le_pos; lra). lra. }
  eapply Rle_trans; [apply Q; assumption|]. apply (Rmult_le_reg_r (1 - beta)); [lra|].
  unfold Rdiv. rewrite Rmult_assoc, Rinv_l by lra. lra.
Qed.

Section Howard.
  Variable g : list R -> list R -> list R -> list R -> list R.
  Variable u : list R -> list R -> list R -> R.
  Variable val : val_fun.
  Variable exo : dexo.
  Variable s : list (list R).
  Variable n_x : nat.
  Variable beta v0 : R.
  Variable lb ub : list R -> list R -> list R.
  Variable interp_x interp_v : tensor -> nat -> nat -> list R -> list R.
  Variable call_v : tensor -> nat -> list R -> R.
  Variable node_x node_v : tensor -> tensor.
  Variable minimize : (list R -> R) -> list R -> list (R * R) -> list R.
  Variable W : tensor -> list R -> list R -> R.
  Notation N := (length s).
  Notation J := (objective_at g u beta exo s W).
  Notation box i n := (combine (lb (ex_node exo i) (nth n s [])) (ub (ex_node exo i) (nth n s []))).
  Notation loop := (vi_loop g u val exo s n_x beta v0 lb ub interp_x interp_v call_v node_x node_v minimize).
  Notation vi := (value_iteration g u val exo s n_x beta v0 lb ub interp_x interp_v call_v node_x node_v minimize).
  Notation impr := (improve g u exo s n_x beta lb ub call_v minimize).
  Notation evalp := (evaluate_policy g val exo s n_x 1 interp_v).
  Notation at_ := (at_node n_x).

  Hypothesis HI : index_is_point exo call_v W.
  Hypothesis HIv : forall w i j S, (i < ex_n exo)%nat -> (j < dp_n (ex_dp exo) i)%nat ->
      nth 0 (interp_v w i j S) 0 = W w (dp_node (ex_dp exo) i j) S.
  Hypothesis Hval : forall m s x v M S X V, val m s x v M S X V 0%nat = u m s x + beta * nth 0 V 0.
  Hypothesis Hdp : forall i, (i < ex_n exo)%nat -> dp_n (ex_dp exo) i = dp_n (ex_dp exo) 0.
  Hypothesis Hnx : forall c i n k, (i < ex_n exo)%nat -> (n < N)%nat -> (k < n_x)%nat -> node_x c i n k = c i n k.
  Hypothesis Hnv : forall w i n, (i < ex_n exo)%nat -> (n < N)%nat -> node_v w i n 0%nat = w i n 0%nat.
  Hypothesis Hav : value_rule_averages exo N W.
  Hypothesis Hw : forall i, (i < ex_n exo)%nat -> probability (dp_n (ex_dp exo) i) (dp_weight (ex_dp exo) i).
  Hypothesis Hb : 0 <= beta < 1.
  Hypothesis Hmax : maximises g u beta exo s W lb ub minimize.
  Hypothesis Hbox : forall i n, (i < ex_n exo)%nat -> (n < N)%nat ->
      length (lb (ex_node exo i) (nth n s [])) = n_x /\ length (ub (ex_node exo i) (nth n s [])) = n_x.
  Variable x0 : list R.
  Variables B V : R.
  Hypothesis Hx0 : length x0 = n_x.
  Hypothesis HB : forall i n y, (i < ex_n exo)%nat -> (n < N)%nat -> in_box (box i n) y \/ y = x0 ->
      Rabs (u (ex_node exo i) (nth n s []) y) <= B.
  Hypothesis HV : B <= (1 - beta) * V.
  Hypothesis Hv0 : Rabs v0 <= V.
  Hypothesis Hit : beta ^ 1999 * (2 * V) <= ep_tol.
  Hypothesis Hs : (0 < ex_n exo * N * n_x)%nat.

  Lemma expect_le : forall n w f f' c, probability n w -> (forall j, (j < n)%nat -> f j <= f' j + c) ->
      rsum n (fun j => w j * f j) <= rsum n (fun j => w j * f' j) + c.
  Proof.
    intros n w f f' c (Hp & H1) H. replace c with (rsum n (fun j => w j * c)) by (rewrite rsum_scal_r, H1; ring).
    rewrite <- rsum_plus. apply rsum_le. intros j Hj. rewrite <- Rmult_plus_distr_l. apply Rmult_le_compat_l; [apply Hp|apply H]; assumption.
  Qed.

  Lemma J_mono : forall v v' c i n y, (i < ex_n exo)%nat ->
      (forall i n, (i < ex_n exo)%nat -> (n < N)%nat -> v i n 0%nat <= v' i n 0%nat + c) -> J v i n y <= J v' i n y + beta * c.
  Proof.
    intros v v' c i n y Hi H. unfold objective_at, bellman.
    rewrite Rplus_assoc. apply Rplus_le_compat_l. rewrite <- Rmult_plus_distr_l. apply Rmult_le_compat_l; [lra|].
    apply expect_le; [apply Hw, Hi|]. intros j Hj. apply (proj1 (Hav i j _ Hi Hj)). exact H.
  Qed.

  Lemma J_bound : forall v c i n y, (i < ex_n exo)%nat ->
      Rabs (u (ex_node exo i) (nth n s []) y) <= B ->
      (forall i n, (i < ex_n exo)%nat -> (n < N)%nat -> Rabs (v i n 0%nat) <= c) -> Rabs (J v i n y) <= B + beta * c.
  Proof.
    intros v c i n y Hi Hu H.
    assert (J0 : J (fun _ _ _ => 0) i n y = u (ex_node exo i) (nth n s []) y).
    { unfold objective_at, bellman. rewrite (rsum_ext _ _ (fun j => 0 * 0)).
      - rewrite rsum_scal. ring.
      - intros j Hj. rewrite (proj2 (Hav i j _ Hi Hj)). ring. }
    assert (A1 : J v i n y <= J (fun _ _ _ => 0) i n y + beta * c).
    { apply J_mono; [exact Hi|]. intros i1 n1 H1 H2. specialize (H i1 n1 H1 H2). pose proof (Rle_abs (v i1 n1 0%nat)). lra. }
    assert (A2 : J (fun _ _ _ => 0) i n y <= J v i n y + beta * c).
    { apply J_mono; [exact Hi|]. intros i1 n1 H1 H2. specialize (H i1 n1 H1 H2).
      pose proof (Rle_abs (- v i1 n1 0%nat)) as Q. rewrite Rabs_Ropp in Q. lra. }
    rewrite J0 in A1, A2. revert Hu. unfold Rabs. destruct Rcase_abs, Rcase_abs; intros; lra.
  Qed.

  Definition bounded (v : tensor) : Prop := forall i n, (i < ex_n exo)%nat -> (n < N)%nat -> Rabs (v i n 0%nat) <= V.
  Definition usable (c : tensor) : Prop := forall i n, (i < ex_n exo)%nat -> (n < N)%nat -> in_box (box i n) (at_ c i n) \/ at_ c i n = x0.

  Lemma J_bounded : forall v c, bounded v -> usable c -> forall i n, (i < ex_n exo)%nat -> (n < N)%nat -> Rabs (J v i n (at_ c i n)) <= V.
  Proof.
    intros v c Hv Hc i n Hi Hn. eapply Rle_trans; [apply (J_bound v V i n _ Hi (HB i n _ Hi Hn (Hc i n Hi Hn)) Hv)|]. lra.
  Qed.
  Lemma V_pos : 0 <= V. Proof. pose proof (Rabs_pos v0). lra. Qed.
  Lemma size1 : (0 < ex_n exo * N * 1)%nat. Proof. nia. Qed.

  Section Eval.
    Variable c : tensor.
    Hypothesis Hc : usable c.
    Notation U := (fun v => update_value g val exo s n_x 1 (node_x c) v (interp_x c) (interp_v v)).

    Lemma U_value : forall v i n, (i < ex_n exo)%nat -> (n < N)%nat -> U v i n 0%nat = J v i n (at_ c i n).
    Proof.
      intros v i n Hi Hn. cbv beta. rewrite update_value_value by assumption. unfold policy_value, objective_at, bellman.
      assert (E : at_ (node_x c) i n = at_ c i n).
      { unfold at_node. apply map_ext_in. intros k Hk. apply in_seq in Hk. apply Hnx; [assumption..|lia]. }
      rewrite E, <- (Hdp i Hi).
      rewrite (rsum_ext _ _ (fun j => dp_weight (ex_dp exo) i j * u (ex_node exo i) (nth n s []) (at_ c i n) +
         beta * (dp_weight (ex_dp exo) i j * W v (dp_node (ex_dp exo) i j) (g (ex_node exo i) (nth n s []) (at_ c i n) (dp_node (ex_dp exo) i j))))).
      - rewrite rsum_plus, rsum_scal_r, rsum_scal, (proj2 (Hw i Hi)). ring.
      - intros j Hj. cbv zeta. rewrite Hval, HIv by assumption. ring.
    Qed.

    Lemma it_bounded : forall q v, bounded v -> bounded (iterate U q v).
    Proof.
      intros q. induction q as [|q IH]; intros v Hv; [exact Hv|]. rewrite iterate_S. intros i n Hi Hn.
      rewrite U_value by assumption. apply (J_bounded _ c); [apply IH, Hv|assumption..].
    Qed.

    Lemma it_step : forall q v, bounded v -> forall i n, (i < ex_n exo)%nat -> (n < N)%nat ->
        Rabs (iterate U (S q) v i n 0%nat - iterate U q v i n 0%nat) <= beta ^ q * (2 * V).
    Proof.
      intros q. induction q as [|q IH]; intros v Hv i n Hi Hn.
      - cbn [pow iterate]. pose proof (it_bounded 1 v Hv i n Hi Hn) as A. cbn [iterate] in A. specialize (Hv i n Hi Hn).
        eapply Rle_trans; [apply Rabs_triang|]. rewrite Rabs_Ropp. lra.
      - assert (E : forall q, iterate U (S q) v i n 0%nat = J (iterate U q v) i n (at_ c i n))
          by (intros q'; rewrite iterate_S; apply U_value; assumption).
        rewrite (E (S q)), (E q).
        assert (P : forall a b i n, (i < ex_n exo)%nat -> (n < N)%nat ->
           (forall i n, (i < ex_n exo)%nat -> (n < N)%nat -> Rabs (a i n 0%nat - b i n 0%nat) <= beta ^ q * (2 * V)) ->
           J a i n (at_ c i n) <= J b i n (at_ c i n) + beta * (beta ^ q * (2 * V))).
        { intros a b i1 n1 H1 H2 H. apply J_mono; [exact H1|]. intros i2 n2 H3 H4. specialize (H i2 n2 H3 H4).
          pose proof (Rle_abs (a i2 n2 0%nat - b i2 n2 0%nat)). lra. }
        pose proof (P (iterate U (S q) v) (iterate U q v) i n Hi Hn (IH v Hv)) as P1.
        pose proof (P (iterate U q v) (iterate U (S q) v) i n Hi Hn) as P2. 
        assert (P3 : forall i n, (i < ex_n exo)%nat -> (n < N)%nat ->
           Rabs (iterate U q v i n 0%nat - iterate U (S q) v i n 0%nat) <= beta ^ q * (2 * V))
          by (intros; rewrite Rabs_minus_sym; apply IH; assumption).
        specialize (P2 P3). cbn [pow]. rewrite Rmult_assoc. apply Rabs_le. lra.
    Qed.

    Lemma eval_ok : forall start, bounded start ->
        exists e w, evalp (node_x c) (interp_x c) ep_tol ep_maxit start = Ok e /\ ep_values e = Some w /\ bounded w /\
          forall i n, (i < ex_n exo)%nat -> (n < N)%nat -> Rabs (J w i n (at_ c i n) - w i n 0%nat) <= ep_tol.
    Proof.
      intros start Hst.
      assert (E : exists e, evalp (node_x c) (interp_x c) ep_tol ep_maxit start = Ok e).
      { unfold evaluate_policy. destruct (Nat.eqb_spec (ex_n exo * N * 1) 0) as [Z|_]; [pose proof size1; lia|]. eexists. reflexivity. }
      destruct E as (e & E). assert (Ht : ep_tol < 10) by (unfold ep_tol; lra).
      assert (Hm : (0 < ep_maxit)%nat) by (unfold ep_maxit; lia).
      destruct (evaluate_policy_run g val exo s n_x 1 interp_v (node_x c) (interp_x c) ep_tol ep_maxit start e Ht Hm E)
        as (q & Hq & _ & Hv & Hd & _ & Hend).
      exists e, (iterate U q start). split; [exact E|]. split; [exact Hv|]. split; [apply it_bounded, Hst|].
      intros i n Hi Hn. rewrite <- U_value by assumption. rewrite <- (iterate_S _ U q start).
      destruct (Nat.lt_ge_cases (S q) ep_maxit) as [Hl|Hl].
      - eapply Rle_trans; [apply (proj1 Hd i n 0%nat); [assumption..|lia]|apply Hend, Hl].
      - eapply Rle_trans; [apply it_step; assumption|]. replace q with 1999%nat by (unfold ep_maxit in *; lia). exact Hit.
    Qed.
  End Eval.

  (** One improvement. *)
  Variable vs : tensor.
  Hypothesis Hsol : bellman_solution g u beta exo s W lb ub vs.
  Notation eps := ep_tol.
  Definition eps1 : R := eps * (1 + beta) / (1 - beta).
  Lemma eps_pos : 0 < eps. Proof. unfold ep_tol. lra. Qed.
  Notation gr := (greedy g u beta exo s n_x W lb ub).
  Definition evaluated (c w : tensor) : Prop :=
    forall i n, (i < ex_n exo)%nat -> (n < N)%nat -> Rabs (J w i n (at_ c i n) - w i n 0%nat) <= eps.

  Lemma vs_bounded : bounded vs.
  Proof.
    assert (A : forall i n, (i < ex_n exo)%nat -> (n < N)%nat -> Rabs (vs i n 0%nat) <= B / (1 - beta)).
    { assert (PB : 0 <= B).
      { assert (exists i n, (i < ex_n exo)%nat /\ (n < N)%nat) as (i & n & Hi & Hn) by (exists 0%nat, 0%nat; nia).
        pose proof (HB i n x0 Hi Hn (or_intror eq_refl)) as Q. pose proof (Rabs_pos (u (ex_node exo i) (nth n s []) x0)). lra. }
      apply (max_principle _ _ (fun i n => Rabs (vs i n 0%nat))); [exact Hb|exact PB|].
      intros c Hc H i n Hi Hn. destruct (Hsol i n Hi Hn) as ((y & Hy & ->) & _).
      eapply Rle_trans; [apply (J_bound vs c i n y Hi (HB i n y Hi Hn (or_introl Hy)) H)|]. lra. }
    intros i n Hi Hn. eapply Rle_trans; [apply A; assumption|].
    apply (Rmult_le_reg_r (1 - beta)); [lra|]. unfold Rdiv. rewrite Rmult_assoc, Rinv_l by lra. lra.
  Qed.

  Lemma above : forall c w, gr w c -> forall w', evaluated c w' ->
      forall i n, (i < ex_n exo)%nat -> (n < N)%nat -> w' i n 0%nat - vs i n 0%nat <= eps / (1 - beta).
  Proof.
    intros c w Hg w' He. pose proof eps_pos.
    apply (max_principle _ _ (fun i n => w' i n 0%nat - vs i n 0%nat)); [exact Hb|lra|].
    intros d Hd H1 i n Hi Hn. specialize (He i n Hi Hn).
    destruct (Hg i n Hi Hn) as (F & _). destruct (Hsol i n Hi Hn) as (_ & S2). specialize (S2 _ F).
    assert (J w' i n (at_ c i n) <= J vs i n (at_ c i n) + beta * d).
    { apply J_mono; [exact Hi|]. intros i1 n1 I1 I2. specialize (H1 i1 n1 I1 I2). lra. }
    pose proof (Rle_abs (- (J w' i n (at_ c i n) - w' i n 0%nat))) as Q. rewrite Rabs_Ropp in Q. lra.
  Qed.

  Lemma improves : forall c w, gr w c ->
      (forall i n, (i < ex_n exo)%nat -> (n < N)%nat -> w i n 0%nat <= J w i n (at_ c i n) + eps) ->
      forall w', evaluated c w' -> forall i n, (i < ex_n exo)%nat -> (n < N)%nat -> w i n 0%nat - w' i n 0%nat <= 2 * eps / (1 - beta).
  Proof.
    intros c w Hg Hi0 w' He. pose proof eps_pos.
    apply (max_principle _ _ (fun i n => w i n 0%nat - w' i n 0%nat)); [exact Hb|lra|].
    intros d Hd H1 i n Hi Hn. specialize (He i n Hi Hn). specialize (Hi0 i n Hi Hn).
    assert (J w i n (at_ c i n) <= J w' i n (at_ c i n) + beta * d).
    { apply J_mono; [exact Hi|]. intros i1 n1 I1 I2. specialize (H1 i1 n1 I1 I2). lra. }
    pose proof (Rle_abs (J w' i n (at_ c i n) - w' i n 0%nat)) as Q. lra.
  Qed.

  Lemma below : forall c w b, gr w c -> 0 <= b ->
      (forall i n, (i < ex_n exo)%nat -> (n < N)%nat -> w i n 0%nat <= J w i n (at_ c i n) + eps) ->
      (forall i n, (i < ex_n exo)%nat -> (n < N)%nat -> vs i n 0%nat - w i n 0%nat <= b) ->
      forall w', evaluated c w' -> forall i n, (i < ex_n exo)%nat -> (n < N)%nat -> vs i n 0%nat - w' i n 0%nat <= beta * b + eps1.
  Proof.
    intros c w b Hg Pb Hi0 Hbd w' He i n Hi Hn.
    pose proof (improves c w Hg Hi0 w' He) as Him. specialize (He i n Hi Hn).
    destruct (Hg i n Hi Hn) as (_ & G). destruct (Hsol i n Hi Hn) as ((y & Hy & E) & _). specialize (G y Hy).
    assert (A1 : J w i n (at_ c i n) <= J w' i n (at_ c i n) + beta * (2 * eps / (1 - beta))).
    { apply J_mono; [exact Hi|]. intros i1 n1 I1 I2. specialize (Him i1 n1 I1 I2). lra. }
    assert (A2 : J vs i n y <= J w i n y + beta * b).
    { apply J_mono; [exact Hi|]. intros i1 n1 I1 I2. specialize (Hbd i1 n1 I1 I2). lra. }
    pose proof (Rle_abs (J w' i n (at_ c i n) - w' i n 0%nat)) as Q.
    assert (eps1 = eps + beta * (2 * eps / (1 - beta))) by (unfold eps1; field; lra).
    unfold objective_at in *. lra.
  Qed.

  (** Bound after [t] passes. *)
  Definition gap (t : nat) : R := beta ^ (t - 2) * (2 * V) + eps1 / (1 - beta).
  Lemma eps1_pos : 0 <= eps1 / (1 - beta).
  Proof.
    pose proof eps_pos. assert (0 < / (1 - beta)) by (apply Rinv_0_lt_compat; lra). unfold eps1, Rdiv.
    repeat apply Rmult_le_pos; lra.
  Qed.
  Lemma gap_pos : forall t, 0 <= gap t.
  Proof.
    intros t. unfold gap. pose proof eps1_pos. pose proof V_pos. assert (0 <= beta ^ (t - 2)) by (apply pow_le; lra).
    assert (0 <= beta ^ (t - 2) * (2 * V)) by (apply Rmult_le_pos; lra). lra.
  Qed.
  Lemma gap_first : forall t, (t <= 2)%nat -> 2 * V <= gap t.
  Proof. intros t H. unfold gap. replace (t - 2)%nat with 0%nat by lia. cbn [pow]. pose proof eps1_pos. lra. Qed.
  Lemma gap_S : forall t, (2 <= t)%nat -> beta * gap t + eps1 = gap (S t).
  Proof. intros t H. unfold gap. replace (S t - 2)%nat with (S (t - 2)) by lia. cbn [pow]. field. lra. Qed.
  Lemma gap_eps : forall t, eps / (1 - beta) <= gap t.
  Proof.
    intros t. unfold gap. pose proof eps_pos. pose proof V_pos. assert (0 <= beta ^ (t - 2)) by (apply pow_le; lra).
    assert (0 <= beta ^ (t - 2) * (2 * V)) by (apply Rmult_le_pos; lra).
    assert (eps <= eps1).
    { unfold eps1. apply (Rmult_le_reg_r (1 - beta)); [lra|]. unfold Rdiv. rewrite Rmult_assoc, Rinv_l, Rmult_1_r by lra.
      apply Rmult_le_compat_l; lra. }
    assert (eps / (1 - beta) <= eps1 / (1 - beta)).
    { apply Rmult_le_compat_r; [apply Rlt_le, Rinv_0_lt_compat; lra|assumption]. }
    lra.
  Qed.

  Definition inv (t : nat) (c w : tensor) (last : option (tensor * (nat -> nat -> R))) (ev : R) : Prop :=
    match t with
    | O => c = (fun _ _ k => nth k x0 0) /\ last = None
    | S t' =>
        gr w c /\ bounded w /\
        (forall i n, (i < ex_n exo)%nat -> (n < N)%nat -> Rabs (w i n 0%nat - vs i n 0%nat) <= gap t) /\
        ((1 <= t')%nat -> forall i n, (i < ex_n exo)%nat -> (n < N)%nat -> w i n 0%nat <= J w i n (at_ c i n) + eps) /\
        exists v, last = Some (c, v) /\
          (forall i n, (i < ex_n exo)%nat -> (n < N)%nat -> v i n = J w i n (at_ c i n)) /\
          ev = tnorm (ex_n exo) N 1 (fun i n k => v i n - node_v w i n k)
    end.

  Lemma improve_greedy : forall w c0, gr w (impr w c0).
  Proof.
    intros w c0 i n Hi Hn. cbv zeta. destruct (Hbox i n Hi Hn) as (Hl & Hu).
    set (m := ex_node exo i) in *. set (p := nth n s []) in *. set (b := combine (lb m p) (ub m p)) in *.
    set (obj := fun xx => - choice_total g u exo beta (call_v w) i p xx).
    destruct (Hmax w i n Hi Hn obj (at_node n_x c0 i n)) as [Hin Hle];
      [intros y; unfold obj; rewrite (choice_bellman g u exo beta call_v W HI w i p y Hi); reflexivity|]. fold m p b in Hin, Hle.
    assert (E : at_node n_x (impr w c0) i n = minimize obj (at_node n_x c0 i n) b).
    { etransitivity; [|apply map_nth_seq].
      replace (length (minimize obj (at_node n_x c0 i n) b)) with n_x; [reflexivity|].
      clear - Hin Hl Hu. unfold in_box in Hin. apply ProcessProofs.Forall2_len in Hin. rewrite <- Hin. subst b. rewrite combine_length, Hl, Hu. symmetry. apply Nat.min_id. }
    rewrite E. split; [assumption|]. intros y Hy. specialize (Hle y Hy). lra.
  Qed.

  Lemma inv_usable : forall t c w last ev, inv t c w last ev -> usable c.
  Proof.
    intros [|t] c w last ev H i n Hi Hn.
    - destruct H as (-> & _). right. unfold at_node. rewrite <- Hx0. apply map_nth_seq.
    - destruct H as (Hg & _). left. apply Hg; assumption.
  Qed.

  Lemma howard_loop : forall tol fuel t ev ex c w last, inv t c w last ev ->
      exists last' t' ev' ex' c' w', loop tol fuel t ev ex c w last = Ok (last', t', ev', ex') /\
        inv t' c' w' last' ev' /\ (t <= t')%nat /\ (tol < ev \/ vi_tol_x < ex -> (0 < fuel)%nat -> (t < t')%nat).
  Proof.
    intros tol fuel. induction fuel as [|fuel IH]; intros t ev ex c w last Hinv; cbn [vi_loop].
    - exists last, t, ev, ex, c, w. split; [reflexivity|]. split; [exact Hinv|]. split; lia.
    - match goal with |- context [if ?b then _ else _] => destruct b eqn:Eb end.
      2:{ exists last, t, ev, ex, c, w. split; [reflexivity|]. split; [exact Hinv|]. split; [lia|]. intros Hor _. exfalso.
          destruct (Rlt_dec tol ev); [discriminate|]. destruct (Rlt_dec vi_tol_x ex); [discriminate|]. tauto. }
      set (start := if Nat.ltb 2 (S t) then node_v w else fun _ _ k => nth k [v0] 0).
      assert (Hst : bounded start).
      { unfold start. destruct (Nat.ltb_spec 2 (S t)) as [Hlt|_].
        - destruct t as [|t']; [lia|]. destruct Hinv as (_ & Hbw & _). intros i n Hi Hn. rewrite Hnv by assumption. apply Hbw; assumption.
        - intros i n Hi Hn. exact Hv0. }
      destruct (eval_ok c (inv_usable _ _ _ _ _ Hinv) start Hst) as (e & w' & Ee & Ew & Hbw & Hev).
      rewrite Ee. cbn [bind]. rewrite Ew. destruct (Nat.eqb_spec (ex_n exo * N * n_x) 0) as [Z|_]; [lia|].
      set (c1 := impr w' c). set (v1 := fun i n => choice_total g u exo beta (call_v w') i (nth n s []) (at_ c1 i n)).
      assert (Hg1 : gr w' c1) by apply improve_greedy.
      assert (Hgap : forall i n, (i < ex_n exo)%nat -> (n < N)%nat -> Rabs (w' i n 0%nat - vs i n 0%nat) <= gap (S t)).
      { intros i n Hi Hn. destruct (Nat.le_gt_cases (S t) 2) as [H2|H2].
        - eapply Rle_trans; [|apply gap_first; exact H2]. pose proof (Hbw i n Hi Hn). pose proof (vs_bounded i n Hi Hn).
          eapply Rle_trans; [apply Rabs_triang|]. rewrite Rabs_Ropp. lra.
        - destruct t as [|t']; [lia|]. destruct Hinv as (Hg & _ & Hgp & Him & _). specialize (Him ltac:(lia)).
          pose proof (above c w Hg w' Hev i n Hi Hn) as A.
          assert (Bd : vs i n 0%nat - w' i n 0%nat <= beta * gap (S t') + eps1).
          { apply (below c w (gap (S t')) Hg (gap_pos _) Him); [|exact Hev|assumption..].
            intros i1 n1 I1 I2. specialize (Hgp i1 n1 I1 I2). pose proof (Rle_abs (- (w i1 n1 0%nat - vs i1 n1 0%nat))) as Q.
            rewrite Rabs_Ropp in Q. lra. }
          rewrite gap_S in Bd by lia. pose proof (gap_eps (S (S t'))). apply Rabs_le. lra. }
      destruct (IH (S t) (tnorm (ex_n exo) N 1 (fun i n k => v1 i n - node_v w' i n k))
        (tnorm (ex_n exo) N n_x (fun i n k => c1 i n k - c i n k)) c1 w' (Some (c1, v1))) as (last' & t' & ev' & ex' & c' & w2 & EL & Hinv' & Hle & _).
      { cbn [inv]. split; [exact Hg1|]. split; [exact Hbw|]. split; [exact Hgap|]. split.
        - intros Ht i n Hi Hn. destruct t as [|t']; [lia|]. destruct Hinv as (Hg & _). destruct (Hg i n Hi Hn) as (F & _).
          destruct (Hg1 i n Hi Hn) as (_ & G). specialize (G _ F). specialize (Hev i n Hi Hn).
          pose proof (Rle_abs (- (J w' i n (at_ c i n) - w' i n 0%nat))) as Q. rewrite Rabs_Ropp in Q. unfold objective_at in *. lra.
        - exists v1. split; [reflexivity|]. split; [|reflexivity]. intros i n Hi Hn. apply choice_bellman; assumption. }
      exists last', t', ev', ex', c', w2. split; [exact EL|]. split; [exact Hinv'|]. split; [lia|]. intros; lia.
  Qed.

  Theorem howard : forall tol maxit, (0 < maxit)%nat ->
      exists r, vi tol maxit x0 = Ok r /\
        (forall i n, (i < ex_n exo)%nat -> (n < N)%nat -> Rabs (vi_values r i n - vs i n 0%nat) <= beta * gap (vi_iterations r)) /\
        vi_v_err r <= (1 + beta) * gap (vi_iterations r).
  Proof.
    intros tol maxit Hm. unfold value_iteration.
    destruct (howard_loop tol maxit 0 100 100 (fun _ _ k => nth k x0 0) (fun _ _ _ => 0) None) as (last & t & ev & ex & c & w & EL & Hinv & _ & Hpos).
    { split; reflexivity. }
    rewrite EL. cbn [bind]. assert (Ht : (0 < t)%nat) by (apply Hpos; [right; unfold vi_tol_x; lra|exact Hm]).
    destruct t as [|t]; [lia|]. destruct Hinv as (Hg & _ & Hgp & _ & v & -> & Hv & Hev). eexists. split; [reflexivity|]. cbn [vi_values vi_iterations vi_v_err].
    assert (A : forall i n, (i < ex_n exo)%nat -> (n < N)%nat -> Rabs (v i n - vs i n 0%nat) <= beta * gap (S t)).
    { intros i n Hi Hn. rewrite (Hv i n Hi Hn). destruct (Hg i n Hi Hn) as (F & G). destruct (Hsol i n Hi Hn) as (S1 & S2).
      refine (max_close (J w i n) (J vs i n) (box i n) _ _ _ _ _ S1 S2 _); [eexists; split; [exact F|reflexivity]|exact G|].
      intros y. assert (Q : forall a b, (forall i n, (i < ex_n exo)%nat -> (n < N)%nat -> Rabs (a i n 0%nat - b i n 0%nat) <= gap (S t)) ->
         J a i n y <= J b i n y + beta * gap (S t)).
      { intros a b H. apply J_mono; [exact Hi|]. intros i1 n1 I1 I2. specialize (H i1 n1 I1 I2).
        pose proof (Rle_abs (a i1 n1 0%nat - b i1 n1 0%nat)). lra. }
      pose proof (Q w vs Hgp) as Q1. pose proof (Q vs w) as Q2.
      assert (Q3 : forall i n, (i < ex_n exo)%nat -> (n < N)%nat -> Rabs (vs i n 0%nat - w i n 0%nat) <= gap (S t)).
      { intros. rewrite Rabs_minus_sym. apply Hgp; assumption. }
      specialize (Q2 Q3). apply Rabs_le. lra. }
    split; [exact A|]. rewrite Hev. apply tnorm_le.
    - apply Rmult_le_pos; [lra|apply gap_pos].
    - intros i n k Hi Hn Hk. assert (k = 0%nat) as -> by lia. rewrite Hnv by assumption.
      specialize (A i n Hi Hn). specialize (Hgp i n Hi Hn).
      replace (v i n - w i n 0%nat) with ((v i n - vs i n 0%nat) - (w i n 0%nat - vs i n 0%nat)) by ring.
      eapply Rle_trans; [apply Rabs_triang|]. rewrite Rabs_Ropp. lra.
  Qed.
End Howard.
