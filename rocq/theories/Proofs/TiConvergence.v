(** Convergence of time iteration. *)
From Coq Require Import String Reals List Arith Bool Lia Lra.
From Verif.Base Require Import Prelude Arrays Norms Ext.
From Verif.Spec Require Import Euler Convergence.
From Verif.Model Require Import Processes DecisionRule Complementarity Newton NumDiff TimeIteration.
From Verif.Spec Require Import TimeIteration.
From Verif.Proofs Require Import NewtonProofs TimeIterationProofs.
Import ListNotations.
Open Scope R_scope.

Lemma updates_split : forall A (U : A -> A -> Prop) a b x z, updates U (a + S b) x z ->
  exists y y', updates U a x y /\ U y y'.
Proof.
  intros A U a. induction a as [|a IH]; intros b x z H.
  - cbn in H. inversion H; subst. exists x, y. split; [constructor|assumption].
  - cbn in H. inversion H; subst. destruct (IH _ _ _ H2) as (y1 & y2 & U1 & U2).
    exists y1, y2. split; [econstructor; eassumption|assumption].
Qed.
Lemma updates_mono : forall A (U W : A -> A -> Prop) n x z, (forall a b, U a b -> W a b) -> updates U n x z -> updates W n x z.
Proof. intros A U W n x z H Hu. induction Hu; [constructor|econstructor; eauto]. Qed.

(** [F k D]: bound of the k-th step when the first is at most D. *)
Definition stepb (lam del : R) (k : nat) (D : R) : R := lam ^ k * (D - del / (1 - lam)) + del / (1 - lam).
Lemma stepb_S : forall lam del k D, lam < 1 -> stepb lam del (S k) D = stepb lam del k (lam * D + del).
Proof. intros. unfold stepb. cbn [pow]. field. lra. Qed.
Lemma stepb_le : forall lam del k D, 0 <= lam < 1 -> 0 <= del -> stepb lam del k D <= lam ^ k * D + del / (1 - lam).
Proof.
  intros. unfold stepb. assert (0 <= lam ^ k) by (apply pow_le; lra).
  assert (0 <= del / (1 - lam)) by (apply Rmult_le_pos; [lra|apply Rlt_le, Rinv_0_lt_compat; lra]).
  assert (0 <= lam ^ k * (del / (1 - lam))) by (apply Rmult_le_pos; assumption). lra.
Qed.

Section Gen.
  Variables a b c : nat.
  Notation wi := (within a b c).
  Variable U : tensor -> tensor -> Prop.
  Variables lam del : R.
  Hypothesis Hl : 0 <= lam < 1.
  Hypothesis HC : forall p q p' q' e, U p q -> U p' q' -> wi p p' e -> wi q q' (lam * e + del).

  Lemma wi_sym : forall x y e, wi x y e -> wi y x e.
  Proof. intros x y e H i n k Hi Hn Hk. rewrite Rabs_minus_sym. apply H; assumption. Qed.

  Lemma step_bound : forall k x p q D, updates U k x p -> (forall y, U x y -> wi y x D) -> U p q -> wi q p (stepb lam del k D).
  Proof.
    intros k. induction k as [|k IH]; intros x p q D Hu HD Hq.
    - inversion Hu; subst. unfold stepb. cbn [pow]. replace (1 * _ + _) with D by ring. apply HD, Hq.
    - inversion Hu; subst. rewrite stepb_S by lra. apply (IH y); [assumption| |assumption].
      intros z Hz. apply (HC y z x y); [assumption|assumption|]. apply HD. assumption.
  Qed.
End Gen.

Section TI.
  Variable g : list R -> list R -> list R -> list R -> list R.
  Variable f : list R -> list R -> list R -> list R -> list R -> list R -> nat -> R.
  Variable exo : dexo.
  Variable s : list (list R).
  Variable n_x : nat.
  Variable interpolate : tensor -> nat -> nat -> list R -> list R.
  Variable lsolve : (nat -> nat -> R) -> (nat -> R) -> res (nat -> R).
  Variable nan : R.
  Notation N := (length s).
  Notation sz := (size exo s n_x).
  Notation wi := (within (ex_n exo) N n_x).
  Notation upd := (ti_update g f exo s n_x interpolate lsolve nan).
  Notation TI := (time_iteration g f exo s n_x interpolate lsolve nan).

  Lemma ti_loop_total : forall im fb tol, sz <> 0%nat ->
    (forall v, exists r, ti_inner g f exo s n_x interpolate lsolve nan im fb v = Ok r) ->
    forall fuel it err c0 ctl, exists r, ti_loop g f exo s n_x interpolate lsolve nan tol im fb fuel it err c0 ctl = Ok r.
  Proof.
    intros im fb tol Hs Ht fuel. induction fuel as [|fuel IH]; intros it err c0 ctl; cbn [ti_loop]; [eexists; reflexivity|].
    destruct (Rlt_dec tol err) as [_|]; [|eexists; reflexivity]. destruct (Nat.eqb_spec sz 0); [contradiction|].
    destruct (Ht c0) as (r & E). rewrite E. cbn [bind]. apply IH.
  Qed.

  Lemma ti_total : forall tol maxit im bounds x0, sz <> 0%nat -> tol < 10 -> (0 < maxit)%nat ->
    (forall p, exists nit c, upd im bounds nit p c) -> exists r, TI tol maxit im bounds x0 = Ok r.
  Proof.
    intros tol maxit im bounds x0 Hs Ht Hm HU.
    destruct (size_pos exo s n_x Hs) as (HN & Hx & _).
    assert (Tot : forall v, exists r, ti_inner g f exo s n_x interpolate lsolve nan im (flat_bounds s n_x bounds) v = Ok r).
    { intros v. destruct (HU (unflatten N n_x v)) as (nit & c & w & cv & E & _).
      rewrite (flatten_unflatten_eq s n_x v HN Hx) in E. eexists. exact E. }
    unfold time_iteration. cbv zeta.
    replace (match bounds with
             | Some (l, u) => Some (fun q : nat => l (q / n_x / N)%nat ((q / n_x) mod N)%nat (q mod n_x)%nat,
                                    fun q : nat => u (q / n_x / N)%nat ((q / n_x) mod N)%nat (q mod n_x)%nat)
             | None => None end) with (flat_bounds s n_x bounds) by (destruct bounds as [[? ?]|]; reflexivity).
    destruct maxit as [|maxit]; [lia|]. cbn [ti_loop].
    destruct (Rlt_dec tol 10) as [_|]; [|lra]. destruct (Nat.eqb_spec sz 0); [contradiction|].
    destruct (Tot (flatten N n_x x0)) as (r0 & E0). rewrite E0. cbn [bind].
    set (c1 := fst (fst r0)). set (e1 := supnorm _ _).
    destruct (ti_loop_total im (flat_bounds s n_x bounds) tol Hs Tot maxit 1 e1 c1 (Some c1)) as ([[ctl it] err] & E).
    rewrite E. cbn [bind]. destruct ctl as [ctl|]; [eexists; reflexivity|].
    apply ti_loop_run in E. destruct E as [(_ & E & _)|(_ & _ & _ & p & c & nit & cv & E & _)]; discriminate.
  Qed.

  Theorem ti_stops : forall tol im bounds x0 lam del m D,
    0 <= lam < 1 -> 0 <= del -> tol < 10 -> sz <> 0%nat ->
    (forall p, exists nit c, upd im bounds nit p c) ->
    (forall n1 n2 p q p' q' e, upd im bounds n1 p q -> upd im bounds n2 p' q' -> wi p p' e -> wi q q' (lam * e + del)) ->
    (forall nit c, upd im bounds nit x0 c -> wi c x0 D) ->
    lam ^ m * D + del / (1 - lam) <= tol ->
    forall maxit, (m < maxit)%nat ->
    exists r, TI tol maxit im bounds x0 = Ok r /\ ti_err r <= tol /\ (ti_iterations r <= S m)%nat.
  Proof.
    intros tol im bounds x0 lam del m D Hl Hd Ht Hs HU HC HD Hm maxit Hmax.
    destruct (ti_total tol maxit im bounds x0 Hs Ht ltac:(lia) HU) as (r & E). exists r. split; [exact E|].
    destruct (time_iteration_run _ _ _ _ _ _ _ _ _ _ _ _ _ _ E) as (R1 & _ & _ & R4 & p & nit & Hup & Hlast & Hdist).
    set (W := fun a b => exists nit, upd im bounds nit a b).
    assert (SB : forall k y z, updates W k x0 y -> W y z -> wi z y tol \/ k <> m).
    { intros k y z H1 H2. destruct (Nat.eq_dec k m) as [->|]; [left|right; assumption].
      intros i n q Hi Hn Hq. eapply Rle_trans; [|exact Hm]. eapply Rle_trans; [|apply stepb_le; assumption].
      refine (step_bound (ex_n exo) N n_x W lam del Hl _ m x0 y z D H1 _ H2 i n q Hi Hn Hq).
      - intros p1 q1 p2 q2 e (n1 & U1) (n2 & U2) H. exact (HC n1 n2 p1 q1 p2 q2 e U1 U2 H).
      - intros y0 (n1 & U1). exact (HD n1 y0 U1). }
    assert (It : (ti_iterations r <= S m)%nat).
    { destruct (le_lt_dec (ti_iterations r) (S m)) as [|Hlt]; [assumption|]. exfalso.
      replace (ti_iterations r - 1)%nat with (m + S (ti_iterations r - 2 - m))%nat in Hup by lia.
      destruct (updates_split _ _ _ _ _ _ Hup) as (y & y' & U1 & (U2 & e & (_ & i & n & k & Hi & Hn & Hk & Ee) & Hlte)).
      assert (U1' : updates W m x0 y) by (eapply updates_mono; [|exact U1]; intros a b (K & _); exact K).
      destruct (SB m y y' U1' U2) as [Hw|]; [|congruence]. specialize (Hw i n k Hi Hn Hk). lra. }
    split; [|exact It]. destruct (Nat.eq_dec (ti_iterations r) maxit) as [Eq|]; [|apply R4; lia].
    assert (Em : (ti_iterations r - 1 = m)%nat) by lia. rewrite Em in Hup.
    assert (U1' : updates W m x0 p) by (eapply updates_mono; [|exact Hup]; intros a b (K & _); exact K).
    destruct (SB m p (ti_controls r) U1' (ex_intro _ nit Hlast)) as [Hw|]; [|congruence].
    destruct Hdist as (_ & i & n & k & Hi & Hn & Hk & <-). apply Hw; assumption.
  Qed.

  Theorem ti_error : forall tol maxit im bounds x0 r xs lam del,
    0 <= lam < 1 ->
    (forall nit p c e, upd im bounds nit p c -> wi p xs e -> wi c xs (lam * e + del)) ->
    TI tol maxit im bounds x0 = Ok r ->
    wi (ti_controls r) xs ((lam * ti_err r + del) / (1 - lam)).
  Proof.
    intros tol maxit im bounds x0 r xs lam del Hl HF E.
    destruct (time_iteration_run _ _ _ _ _ _ _ _ _ _ _ _ _ _ E) as (R1 & _ & _ & R4 & p & nit & Hup & Hlast & Hdist).
    intros i n k Hi Hn Hk.
    assert (Hs : (0 < sz)%nat) by (pose proof (size_of_range exo s n_x i n k Hi Hn Hk); lia).
    assert (exists e0, distance_is (ex_n exo) N n_x (ti_controls r) xs e0) as (e0 & D0).
    { destruct Hlast as (v & cv & _ & ->). eexists. apply distance_flat. exact Hs. }
    assert (Hp : wi p xs (ti_err r + e0)).
    { intros i1 n1 k1 H1 H2 H3. replace (p i1 n1 k1 - xs i1 n1 k1) with ((p i1 n1 k1 - ti_controls r i1 n1 k1) + (ti_controls r i1 n1 k1 - xs i1 n1 k1)) by ring.
      eapply Rle_trans; [apply Rabs_triang|]. apply Rplus_le_compat; [rewrite Rabs_minus_sym; apply (proj1 Hdist); assumption|apply (proj1 D0); assumption]. }
    pose proof (HF nit p _ _ Hlast Hp) as Hc.
    assert (e0 <= lam * (ti_err r + e0) + del) by (destruct D0 as (_ & i1 & n1 & k1 & H1 & H2 & H3 & <-); apply Hc; assumption).
    eapply Rle_trans; [apply (proj1 D0); assumption|].
    apply (Rmult_le_reg_r (1 - lam)); [lra|]. unfold Rdiv. rewrite Rmult_assoc, Rinv_l by lra. lra.
  Qed.

  (** Without bounds, in terms of the equations of the model. *)
  Notation E := (arbitrage_at g f exo s n_x interpolate).
  Variables a K : R.
  Hypothesis Ha : 0 <= K < a.
  Hypothesis Hslope : forall r x y e, wi (E r x) (E r y) e -> wi x y (e / a).
  Hypothesis Hlip : forall r r' x e, wi r r' e -> wi (E r x) (E r' x) (K * e).
  Hypothesis Hloc : interpolates_values exo N n_x interpolate.
  Variable im : nat.
  Hypothesis Hstop : forall p, exists nit c, (nit < im)%nat /\ upd im None nit p c.

  Lemma upd_stop : forall nit p c, upd im None nit p c -> (nit < im)%nat.
  Proof.
    intros nit p c (v & cv & H & _). destruct (Hstop p) as (nit' & c' & L & v' & cv' & H' & _). rewrite H in H'. injection H' as _ <- _. exact L.
  Qed.
  Lemma upd_small : forall nit p c i n k, upd im None nit p c -> (i < ex_n exo)%nat -> (n < N)%nat -> (k < n_x)%nat -> Rabs (E p c i n k) < newton_tol.
  Proof.
    intros nit p c i n k H Hi Hn Hk.
    exact (ti_update_free g f exo s n_x interpolate lsolve nan Hloc im nit p c (size_of_range exo s n_x i n k Hi Hn Hk) H (upd_stop _ _ _ H) i n k Hi Hn Hk).
  Qed.

  Lemma free_contracts : forall n1 n2 p q p' q' e, upd im None n1 p q -> upd im None n2 p' q' -> wi p p' e ->
    wi q q' (K / a * e + 2 * newton_tol / a).
  Proof.
    intros n1 n2 p q p' q' e U1 U2 H.
    replace (K / a * e + 2 * newton_tol / a) with ((K * e + 2 * newton_tol) / a) by (field; lra).
    apply (Hslope p). intros i n k Hi Hn Hk.
    pose proof (upd_small _ _ _ i n k U1 Hi Hn Hk). pose proof (upd_small _ _ _ i n k U2 Hi Hn Hk).
    pose proof (Hlip p p' q' e H i n k Hi Hn Hk).
    revert H0 H1 H2. generalize (E p q i n k) (E p' q' i n k) (E p q' i n k). intros A B C H0 H1 H2.
    apply Rabs_def2 in H0, H1. apply Rabs_le. revert H2. unfold Rabs. destruct (Rcase_abs _); intros; lra.
  Qed.
  Lemma free_fixed : forall xs, (forall i n k, (i < ex_n exo)%nat -> (n < N)%nat -> (k < n_x)%nat -> E xs xs i n k = 0) ->
    forall nit p c e, upd im None nit p c -> wi p xs e -> wi c xs (K / a * e + newton_tol / a).
  Proof.
    intros xs Hxs nit p c e U1 H.
    replace (K / a * e + newton_tol / a) with ((K * e + newton_tol) / a) by (field; lra).
    apply (Hslope xs). intros i n k Hi Hn Hk.
    pose proof (upd_small _ _ _ i n k U1 Hi Hn Hk). rewrite Hxs by assumption.
    pose proof (Hlip p xs c e H i n k Hi Hn Hk).
    revert H0 H1. generalize (E p c i n k) (E xs c i n k). intros A B H0 H1.
    apply Rabs_def2 in H0. apply Rabs_le. revert H1. unfold Rabs. destruct (Rcase_abs _); intros; lra.
  Qed.

  Theorem ti_free_converges : forall tol x0 m D, tol < 10 -> sz <> 0%nat ->
    (forall nit c, upd im None nit x0 c -> wi c x0 D) ->
    (K / a) ^ m * D + 2 * newton_tol / (a - K) <= tol ->
    forall maxit, (m < maxit)%nat ->
    exists r, TI tol maxit im None x0 = Ok r /\ ti_err r <= tol /\ (ti_iterations r <= S m)%nat /\
      forall xs, (forall i n k, (i < ex_n exo)%nat -> (n < N)%nat -> (k < n_x)%nat -> E xs xs i n k = 0) ->
        wi (ti_controls r) xs ((K * ti_err r + newton_tol) / (a - K)).
  Proof.
    intros tol x0 m D Ht Hs HD Hm maxit Hmax.
    assert (Hl : 0 <= K / a < 1).
    { split; [apply Rmult_le_pos; [lra|apply Rlt_le, Rinv_0_lt_compat; lra]|].
      apply (Rmult_lt_reg_r a); [lra|]. unfold Rdiv. rewrite Rmult_assoc, Rinv_l by lra. lra. }
    assert (Hnt : 0 < newton_tol) by (unfold newton_tol; lra).
    destruct (ti_stops tol im None x0 (K / a) (2 * newton_tol / a) m D) with (maxit := maxit) as (r & E1 & E2 & E3); try assumption.
    - apply Rmult_le_pos; [lra|apply Rlt_le, Rinv_0_lt_compat; lra].
    - intros p. destruct (Hstop p) as (nit & c & _ & H). exists nit, c. exact H.
    - exact free_contracts.
    - replace (2 * newton_tol / a / (1 - K / a)) with (2 * newton_tol / (a - K)) by (field; lra). exact Hm.
    - exists r. repeat (split; [assumption|]). intros xs Hxs.
      replace ((K * ti_err r + newton_tol) / (a - K)) with ((K / a * ti_err r + newton_tol / a) / (1 - K / a)) by (field; lra).
      exact (ti_error tol maxit im None x0 r xs (K / a) (newton_tol / a) Hl (free_fixed xs Hxs) E1).
  Qed.
End TI.

(** ** A model that meets the hypotheses: one node, arbitrage x - X'/2 - 1 = 0, of equilibrium 2. *)
Definition half_f (m s x M S X : list R) (k : nat) : R := hd 0 x - hd 0 X / 2 - 1.
Definition node_ip (x : tensor) (i j : nat) (p : list R) : list R := [x 0%nat 0%nat 0%nat].
Section Half.
  Notation E := (arbitrage_at (fun _ s _ _ => s) half_f one_exo [[0]] 1 node_ip).
  Notation fn := (ti_fn (fun _ s _ _ => s) half_f one_exo [[0]] 1 node_ip).
  Notation dfn c0 := (serial_function 1 (fn c0)).
  Lemma half_E : forall r x k, E r x 0%nat 0%nat k = x 0%nat 0%nat 0%nat - r 0%nat 0%nat 0%nat / 2 - 1.
  Proof. intros. unfold arbitrage_at, euler, at_node, half_f, node_ip. cbn. lra. Qed.
  Lemma half_slope : forall r x y e, within 1 1 1 (E r x) (E r y) e -> within 1 1 1 x y (e / 1).
  Proof.
    intros r x y e H i n k Hi Hn Hk. assert (i = 0 /\ n = 0 /\ k = 0)%nat as (-> & -> & ->) by lia.
    specialize (H 0%nat 0%nat 0%nat ltac:(lia) ltac:(lia) ltac:(lia)). rewrite !half_E in H.
    replace (x 0%nat 0%nat 0%nat - y 0%nat 0%nat 0%nat) with (x 0%nat 0%nat 0%nat - r 0%nat 0%nat 0%nat / 2 - 1 - (y 0%nat 0%nat 0%nat - r 0%nat 0%nat 0%nat / 2 - 1)) by ring.
    unfold Rdiv at 3. rewrite Rinv_1, Rmult_1_r. exact H.
  Qed.
  Lemma half_lip : forall r r' x e, within 1 1 1 r r' e -> within 1 1 1 (E r x) (E r' x) (1 / 2 * e).
  Proof.
    intros r r' x e H i n k Hi Hn Hk. assert (i = 0 /\ n = 0 /\ k = 0)%nat as (-> & -> & ->) by lia.
    specialize (H 0%nat 0%nat 0%nat ltac:(lia) ltac:(lia) ltac:(lia)). rewrite !half_E.
    revert H. unfold Rabs. destruct (Rcase_abs _), (Rcase_abs _); intros; lra.
  Qed.
  Lemma half_local : interpolates_values one_exo 1 1 node_ip.
  Proof. intros x y H i j p Hi Hj. unfold node_ip. f_equal. apply H; cbn; lia. Qed.
  Lemma half_fn : forall c0 v, fn c0 v 0%nat = v 0%nat - c0 0%nat / 2 - 1.
  Proof.
    intros. unfold ti_fn, flatten.
    change (0 / 1 / length [[0%R]])%nat with 0%nat. change ((0 / 1) mod length [[0%R]])%nat with 0%nat.
    change (0 mod 1)%nat with 0%nat. rewrite residuals_total_value by (cbn; lia).
    unfold eul, euler, at_node, half_f, node_ip, unflatten. cbn. lra.
  Qed.
  Lemma half_norm : forall c0 v, supnorm 1 (fn c0 v) = Rabs (v 0%nat - c0 0%nat / 2 - 1).
  Proof. intros. unfold supnorm. cbn [vmax]. rewrite half_fn. apply Rmax_right. apply Rabs_pos. Qed.
  Lemma half_jac : forall c0 v, snd (dfn c0 v) 0%nat 0%nat = 1.
  Proof.
    intros. unfold serial_function. cbn [snd].
    change (if (0 / 1 =? 0 / 1)%nat then ?a else ?b) with a. unfold serial_diff.
    change (0 / 1)%nat with 0%nat. change (0 mod 1)%nat with 0%nat. cbn [Nat.mul Nat.add].
    rewrite !half_fn. unfold shift_col, shift. change (0 / 1)%nat with 0%nat. change (0 mod 1)%nat with 0%nat.
    cbn [Nat.eqb Nat.mul Nat.add]. unfold serial_eps. field.
  Qed.
  Lemma half_newton : forall im c0, (1 < im)%nat -> exists c nit, (nit < im)%nat /\
    newton 1 (dfn c0) diag_solve newton_tol im c0 = Ok (c, nit, true).
  Proof.
    intros im c0 Him. unfold newton. destruct im as [|im]; [lia|]. cbn [newton_loop Nat.eqb].
    destruct (dfn c0 c0) as [v dv] eqn:Ed0.
    assert (Ev : v = fn c0 c0) by (unfold serial_function in Ed0; congruence).
    assert (Ed : dv 0%nat 0%nat = 1) by (pose proof (half_jac c0 c0) as J; rewrite Ed0 in J; exact J).
    subst v. rewrite half_norm.
    destruct (Rlt_dec _ newton_tol) as [_|Hn]; [exists c0, 0%nat; split; [lia|reflexivity]|].
    set (z := Rabs (c0 0%nat - c0 0%nat / 2 - 1)) in *.
    unfold diag_solve at 1. rewrite Ed. destruct (Req_EM_T 1 0) as [|_]; [lra|]. cbn [bind].
    set (dx := fun q => fn c0 c0 q / 1).
    assert (T : trial c0 dx 0 0%nat - c0 0%nat / 2 - 1 = 0) by (unfold trial, dx; rewrite half_fn; cbn; field).
    assert (Hz : 0 < z) by (unfold newton_tol in Hn; lra).
    assert (B : backtrack 1 (dfn c0) (maxbacksteps - 1) 0 z c0 dx = trial c0 dx 0).
    { unfold maxbacksteps. cbn [Nat.sub backtrack]. change (fst (dfn c0 (trial c0 dx 0))) with (fn c0 (trial c0 dx 0)).
      rewrite half_norm, T, Rabs_R0. destruct (Rlt_dec 0 z); [reflexivity|lra]. }
    rewrite B. exists (trial c0 dx 0), 1%nat. split; [lia|].
    destruct im as [|im]; [lia|]. cbn [newton_loop Nat.eqb].
    destruct (dfn c0 (trial c0 dx 0)) as [v2 dv2] eqn:E2.
    assert (Ev2 : v2 = fn c0 (trial c0 dx 0)) by (unfold serial_function in E2; congruence).
    subst v2. rewrite half_norm, T, Rabs_R0. destruct (Rlt_dec _ newton_tol) as [_|Hn2]; [reflexivity|].
    exfalso. apply Hn2. unfold newton_tol. lra.
  Qed.
  Lemma half_stop : forall nan im, (1 < im)%nat -> forall p, exists nit c, (nit < im)%nat /\
    ti_update (fun _ s _ _ => s) half_f one_exo [[0]] 1 node_ip diag_solve nan im None nit p c.
  Proof.
    intros nan im Him p. destruct (half_newton im (flatten 1 1 p) Him) as (c & nit & H1 & H2).
    exists nit, (unflatten 1 1 c). split; [exact H1|]. exists c, true. split; [exact H2|reflexivity].
  Qed.
  Lemma half_first : forall nan im, (1 < im)%nat -> forall nit c,
    ti_update (fun _ s _ _ => s) half_f one_exo [[0]] 1 node_ip diag_solve nan im None nit (fun _ _ _ => 0) c ->
    within 1 1 1 c (fun _ _ _ => 0) 2.
  Proof.
    intros nan im Him nit c U i n k Hi Hn Hk. assert (i = 0 /\ n = 0 /\ k = 0)%nat as (-> & -> & ->) by lia.
    pose proof (upd_small (fun _ s _ _ => s) half_f one_exo [[0]] 1 node_ip diag_solve nan half_local im (half_stop nan im Him)
      nit _ c 0%nat 0%nat 0%nat U ltac:(cbn; lia) ltac:(cbn; lia) ltac:(cbn; lia)) as H.
    rewrite half_E in H. unfold newton_tol in H. apply Rabs_def2 in H. apply Rabs_le. lra.
  Qed.
End Half.
