(** Improved time iteration on affine models. *)
From Coq Require Import Reals List Arith Lia Lra.
From Verif.Base Require Import Prelude Arrays Sums Norms Ext.
From Verif.Spec Require Import LinearAlgebra Euler NewtonStep ImprovedTimeIteration ItiRegular AffineModel.
From Verif.Model Require Import LinearSolve NumDiff Processes TimeIteration ImprovedTimeIteration.
From Verif.Proofs Require Import TimeIterationProofs ImprovedTimeIterationProofs ItiConvergence.
Import ListNotations.
Open Scope R_scope.

Lemma nth_at_node : forall n_x x i n l, (l < n_x)%nat -> nth l (at_node n_x x i n) 0 = x i n l.
Proof. intros. unfold at_node. apply nth_map_seq. assumption. Qed.
Lemma nth_shift : forall n_x X l h j, (j < n_x)%nat -> nth j (shift_list n_x X l h) 0 = nth j X 0 + (if Nat.eqb j l then h else 0).
Proof. intros. unfold shift_list. rewrite (nth_map_seq (fun k => if Nat.eqb k l then nth k X 0 + h else nth k X 0)) by assumption. destruct (Nat.eqb j l); ring. Qed.
Lemma rsum_hit : forall n l (u : nat -> R) h, (l < n)%nat -> rsum n (fun j => u j * (if Nat.eqb j l then h else 0)) = u l * h.
Proof.
  intros n l u h Hl. rewrite (rsum_single n l); [|exact Hl|intros i Hi Hne; destruct (Nat.eqb_spec i l) as [E|E]; [contradiction|ring]].
  rewrite Nat.eqb_refl. reflexivity.
Qed.

Section Aff.
  Variable n_x : nat.
  Variable next : list R -> list R -> list R -> list R.
  Variable a : list R -> list R -> list R -> nat -> R.
  Variables B C : list R -> list R -> list R -> nat -> nat -> R.
  Variable exo : dexo.
  Variable s : list (list R).
  Variable interpolate : tensor -> nat -> nat -> list R -> list R.
  Variable lb ub : tensor_ext.
  Variable nan : R.
  Notation g := (affine_transition next).
  Notation f := (affine_equation n_x a B C).
  Notation dp := (ex_dp exo).
  Notation n_m := (Nat.max (ex_n exo) 1).
  Notation N := (length s).
  Notation n_im := (dp_n dp 0).
  Notation tn := (tnorm n_m N n_x).
  Notation change := (expected_change n_x next B C exo s interpolate).
  Notation ev := (control_of interpolate).
  Hypothesis Hexo : (1 <= ex_n exo)%nat.
  Hypothesis Hn : forall i, (i < ex_n exo)%nat -> dp_n dp i = n_im.
  Hypothesis Hev : linear_rule n_m n_im N n_x ev.

  Lemma aff_total : forall phi x i n k, (i < n_m)%nat -> (n < N)%nat ->
    euler_total g f exo s n_x phi x i n k =
    rsum n_im (fun j => dp_weight dp i j * f (ex_node exo i) (nth n s []) (at_node n_x x i n) (dp_node dp i j)
                          (next (ex_node exo i) (nth n s []) (dp_node dp i j))
                          (phi i j (next (ex_node exo i) (nth n s []) (dp_node dp i j))) k).
  Proof.
    intros phi x i n k Hi HN. rewrite euler_total_value by (try assumption; lia). rewrite Hn by lia. reflexivity.
  Qed.

  Lemma aff_dres : forall x i n k l, (i < n_m)%nat -> (n < N)%nat -> (l < n_x)%nat ->
    iti_dres g f exo s n_x interpolate x i n k l =
    rsum n_im (fun j => dp_weight dp i j * B (ex_node exo i) (nth n s []) (dp_node dp i j) k l).
  Proof.
    intros x i n k l Hi HN Hl. unfold iti_dres. cbv zeta. rewrite !aff_total by assumption. rewrite <- rsum_minus.
    unfold Rdiv. rewrite <- rsum_scal_r. apply rsum_ext. intros j Hj. unfold affine_equation.
    assert (E : rsum n_x (fun l0 => B (ex_node exo i) (nth n s []) (dp_node dp i j) k l0 * nth l0 (at_node n_x (shift_control x l serial_eps) i n) 0)
              = rsum n_x (fun l0 => B (ex_node exo i) (nth n s []) (dp_node dp i j) k l0 * nth l0 (at_node n_x x i n) 0) +
                B (ex_node exo i) (nth n s []) (dp_node dp i j) k l * serial_eps).
    { rewrite <- (rsum_hit n_x l (B (ex_node exo i) (nth n s []) (dp_node dp i j) k) serial_eps Hl), <- rsum_plus. apply rsum_ext. intros l0 Hl0.
      rewrite !nth_at_node by assumption. unfold shift_control. destruct (Nat.eqb l0 l); ring. }
    rewrite E. unfold serial_eps. field.
  Qed.

  Lemma aff_jres : forall x i j n k l, (n < N)%nat -> (l < n_x)%nat ->
    iti_jres g f exo s n_x interpolate x i j n k l = dp_weight dp i j * C (ex_node exo i) (nth n s []) (dp_node dp i j) k l.
  Proof.
    intros x i j n k l HN Hl. unfold iti_jres. cbv zeta. f_equal. unfold affine_equation.
    set (S := nth n (next_states g exo s n_x x i j) []).
    set (Cm := C (ex_node exo i) (nth n s []) (dp_node dp i j) k).
    assert (E : rsum n_x (fun l0 => Cm l0 * nth l0 (shift_list n_x (interpolate x i j S) l serial_eps) 0)
              = rsum n_x (fun l0 => Cm l0 * nth l0 (interpolate x i j S) 0) + Cm l * serial_eps).
    { rewrite <- (rsum_hit n_x l Cm serial_eps Hl), <- rsum_plus. apply rsum_ext. intros l0 Hl0. rewrite nth_shift by assumption. ring. }
    rewrite E. unfold serial_eps. field.
  Qed.

  Lemma aff_change : forall x q p i n k, (i < n_m)%nat -> (n < N)%nat ->
    today g f exo s n_x interpolate lb ub false nan x q i n k + tomorrow g f exo s n_x interpolate lb ub false nan x p i n k = change q p i n k.
  Proof.
    intros x q p i n k Hi HN. unfold today, tomorrow, present_effect, future_effect, expected_change. cbv zeta.
    assert (E1 : rsum n_x (fun l => iti_dres_c g f exo s n_x interpolate lb ub false nan x i n k l * q i n l) =
                 rsum n_im (fun j => dp_weight dp i j * rsum n_x (fun l => B (ex_node exo i) (nth n s []) (dp_node dp i j) k l * q i n l))).
    { rewrite (rsum_ext n_im _ (fun j => rsum n_x (fun l => dp_weight dp i j * (B (ex_node exo i) (nth n s []) (dp_node dp i j) k l * q i n l))))
        by (intros j Hj; symmetry; apply rsum_scal).
      rewrite rsum_swap. apply rsum_ext. intros l Hl. unfold iti_dres_c, iti_row_factors. cbn [fst snd]. rewrite aff_dres by assumption.
      destruct (Nat.eqb k l); rewrite Rmult_1_l, Rplus_0_r, <- rsum_scal_r; apply rsum_ext; intros j Hj; ring. }
    rewrite E1, <- rsum_plus. apply rsum_ext. intros j Hj. rewrite Rmult_plus_distr_l. f_equal.
    rewrite <- rsum_scal. apply rsum_ext. intros l Hl. unfold iti_jres_c, iti_row_factors. cbn [fst]. rewrite aff_jres by assumption.
    rewrite next_states_nth by assumption. unfold control_of, affine_transition. ring.
  Qed.

  Lemma aff_res : forall x i n k, iti_res g f exo s n_x interpolate lb ub false nan x i n k = euler_total g f exo s n_x (interpolate x) x i n k.
  Proof. reflexivity. Qed.

  Variables (xs : tensor) (lam M : R).
  Hypothesis Hsol : affine_solution n_x next a B C exo s interpolate xs.
  Hypothesis Hc : affine_contraction n_x next B C exo s interpolate lam.
  Hypothesis Hb : affine_bound n_x next B C exo s interpolate M.

  Lemma aff_res_change : forall x i n k, (i < n_m)%nat -> (n < N)%nat -> (k < n_x)%nat ->
    let z := fun i n k => x i n k - xs i n k in
    iti_res g f exo s n_x interpolate lb ub false nan x i n k = change z z i n k.
  Proof.
    intros x i n k Hi HN Hk z. rewrite aff_res. rewrite aff_total by assumption.
    pose proof (Hsol i n k Hi HN Hk) as H0. cbv beta in H0. unfold euler in H0. cbv zeta in H0.
    rewrite <- (Rminus_0_r (rsum n_im _)). rewrite <- H0. rewrite <- rsum_minus. unfold expected_change. cbv zeta. apply rsum_ext. intros j Hj.
    unfold affine_transition. rewrite <- Rmult_minus_distr_l. f_equal. unfold affine_equation.
    set (Bm := B (ex_node exo i) (nth n s []) (dp_node dp i j) k). set (Cm := C (ex_node exo i) (nth n s []) (dp_node dp i j) k).
    set (S := next (ex_node exo i) (nth n s []) (dp_node dp i j)).
    assert (E1 : rsum n_x (fun l => Bm l * z i n l) = rsum n_x (fun l => Bm l * nth l (at_node n_x x i n) 0) - rsum n_x (fun l => Bm l * nth l (at_node n_x xs i n) 0)).
    { rewrite <- rsum_minus. apply rsum_ext. intros l Hl. rewrite !nth_at_node by assumption. unfold z. ring. }
    assert (E2 : rsum n_x (fun l => Cm l * nth l (interpolate z i j S) 0) = rsum n_x (fun l => Cm l * nth l (interpolate x i j S) 0) - rsum n_x (fun l => Cm l * nth l (interpolate xs i j S) 0)).
    { rewrite <- rsum_minus. apply rsum_ext. intros l Hl.
      pose proof (Hev 1 1 z xs x) as L. unfold control_of in L. rewrite L; [ring| |assumption|assumption|assumption].
      intros i0 n0 k0 _ _ _. unfold z. ring. }
    rewrite E1, E2. ring.
  Qed.

  Lemma tn_zero : tn (fun _ _ _ => 0) <= 0.
  Proof. apply tnorm_le; [lra|]. intros. rewrite Rabs_R0. lra. Qed.
  Lemma change_zero_rule : forall i n k, (i < n_m)%nat -> (n < N)%nat -> forall q, change q (fun _ _ _ => 0) i n k =
    rsum n_im (fun j => dp_weight dp i j * rsum n_x (fun l => B (ex_node exo i) (nth n s []) (dp_node dp i j) k l * q i n l)).
  Proof.
    intros i n k Hi HN q. unfold expected_change. cbv zeta. apply rsum_ext. intros j Hj. f_equal. rewrite rsum_0 with (f := fun l => _ * nth l (interpolate _ i j _) 0); [ring|].
    intros l Hl. pose proof (Hev 0 0 (fun _ _ _ => 0) (fun _ _ _ => 0) (fun _ _ _ => 0)) as L. unfold control_of in L. rewrite L; try assumption; [ring|]. intros; ring.
  Qed.

  Lemma affine_regular : forall r, regular_equilibrium g f exo s n_x interpolate lb ub false nan xs r lam 0 0 M.
  Proof.
    intros r x _. split; [|split; [|split]].
    - intros i n Hi HN (z & (k0 & Hk0 & Nz) & Hz).
      set (q := fun i' n' l => if (Nat.eqb i' i && Nat.eqb n' n)%bool then z l else 0).
      assert (Q : tn q <= lam * tn (fun _ _ _ => 0)).
      { apply Hc. intros i' n' k Hi' HN' Hk. cbv beta. rewrite change_zero_rule by assumption.
        destruct (Nat.eqb_spec i' i) as [->|Ni]; [destruct (Nat.eqb_spec n' n) as [->|Nn]|].
        - specialize (Hz k Hk). unfold mat_vec in Hz. rewrite <- Hz.
          rewrite (rsum_ext n_im _ (fun j => rsum n_x (fun l => dp_weight dp i j * (B (ex_node exo i) (nth n s []) (dp_node dp i j) k l * q i n l))))
            by (intros j Hj; symmetry; apply rsum_scal).
          rewrite rsum_swap. apply rsum_ext. intros l Hl. unfold iti_dres_c, iti_row_factors. cbn [fst snd]. rewrite aff_dres by assumption.
          unfold q. rewrite !Nat.eqb_refl. cbn [andb]. destruct (Nat.eqb k l); rewrite Rmult_1_l, Rplus_0_r, <- rsum_scal_r; apply rsum_ext; intros j Hj; ring.
        - apply rsum_0. intros j Hj. rewrite (rsum_0 n_x); [ring|]. intros l Hl. unfold q. rewrite Nat.eqb_refl, (proj2 (Nat.eqb_neq n' n) Nn). cbn [andb]. ring.
        - apply rsum_0. intros j Hj. rewrite (rsum_0 n_x); [ring|]. intros l Hl. unfold q. rewrite (proj2 (Nat.eqb_neq i' i) Ni). cbn [andb]. ring. }
      assert (T0 : tn (fun _ _ _ => 0) = 0).
      { apply Rle_antisym; [apply tn_zero|]. pose proof (tnorm_ge n_m N n_x (fun _ _ _ => 0) i n k0 Hi HN Hk0) as G. cbv beta in G. rewrite Rabs_R0 in G. exact G. }
      rewrite T0, Rmult_0_r in Q. pose proof (tnorm_ge n_m N n_x q i n k0 Hi HN Hk0) as G. unfold q in G at 1. rewrite !Nat.eqb_refl in G. cbn [andb] in G.
      pose proof (Rabs_pos_lt (z k0) Nz). lra.
    - intros p q H. apply Hc. intros i n k Hi HN Hk. cbv beta. rewrite <- (aff_change x) by assumption. apply H; assumption.
    - intros q z H. 
      assert (Q : tn q <= lam * tn (fun _ _ _ => 0)).
      { apply Hc. intros i n k Hi HN Hk. cbv beta. specialize (H i n k Hi HN Hk). cbv beta in H.
        rewrite aff_res_change in H by assumption. rewrite <- (aff_change x z z) in H by assumption.
        rewrite <- (aff_change x) by assumption. fold z in H. rewrite H.
        assert (E : tomorrow g f exo s n_x interpolate lb ub false nan x (fun _ _ _ => 0) i n k = 0).
        { unfold tomorrow, future_effect. apply rsum_0. intros j Hj. apply rsum_0. intros l Hl.
          rewrite (Hev 0 0 (fun _ _ _ => 0) (fun _ _ _ => 0) (fun _ _ _ => 0)); try assumption; [ring|]. intros; ring. }
        rewrite E. ring. }
      assert (T0 : lam * tn (fun _ _ _ => 0) = 0 \/ tn q <= 0).
      { destruct (Nat.eq_dec N 0) as [Z|NZ]; [|destruct (Nat.eq_dec n_x 0) as [Z2|NZ2]].
        - right. apply tnorm_le; [lra|]. intros; lia.
        - right. apply tnorm_le; [lra|]. intros; lia.
        - left. replace (tn (fun _ _ _ => 0)) with 0; [ring|]. apply Rle_antisym; [|apply tn_zero].
          pose proof (tnorm_ge n_m N n_x (fun _ _ _ => 0) 0 0 0 ltac:(lia) ltac:(lia) ltac:(lia)) as G. cbv beta in G. rewrite Rabs_R0 in G. exact G. }
      replace ((1 - lam) * (0 + 0 * tdist exo s n_x x xs) * tdist exo s n_x x xs) with 0 by ring. destruct T0; lra.
    - unfold error_at. fold (tdist exo s n_x x xs). set (z := fun i n k => x i n k - xs i n k).
      destruct (Nat.eq_dec N 0) as [Z|NZ]; [|destruct (Nat.eq_dec n_x 0) as [Z2|NZ2]].
      + assert (forall y, tn y = 0) as E.
        { intros y. unfold tnorm. rewrite Z. reflexivity || (rewrite ?Nat.mul_0_r, ?Nat.mul_0_l; reflexivity). }
        unfold tdist. rewrite !E. lra.
      + assert (forall y, tn y = 0) as E.
        { intros y. unfold tnorm. rewrite Z2. rewrite ?Nat.mul_0_r. reflexivity. }
        unfold tdist. rewrite !E. lra.
      + assert (P : 0 <= M * tdist exo s n_x x xs).
        { eapply Rle_trans; [apply Rabs_pos|apply (Hb z 0%nat 0%nat 0%nat); lia]. }
        apply tnorm_le; [exact P|]. intros i n k Hi HN Hk. rewrite aff_res_change by assumption. fold z. apply Hb; assumption.
  Qed.
End Aff.

Theorem affine_converges : forall n_x next a B C exo s interpolate lb ub nan,
  linear_rule (Nat.max (ex_n exo) 1) (dp_n (ex_dp exo) 0) (length s) n_x (control_of interpolate) ->
  (forall i, (i < ex_n exo)%nat -> dp_n (ex_dp exo) i = dp_n (ex_dp exo) 0) ->
  forall xs lam K,
  affine_solution n_x next a B C exo s interpolate xs ->
  affine_contraction n_x next B C exo s interpolate lam -> affine_bound n_x next B C exo s interpolate K ->
  0 <= lam < 1 -> 0 <= K ->
  forall tol maxbsteps smaxit maxit x0,
  (1 <= ex_n exo)%nat -> (1 <= length s)%nat -> (1 <= n_x)%nat -> (1 <= maxbsteps)%nat -> (1 <= smaxit)%nat -> (1 <= maxit)%nat ->
  let q := 1 - (/ 2) ^ (maxbsteps - 1) * (1 - lam ^ 2) in
  exists res, improved_time_iteration (affine_transition next) (affine_equation n_x a B C) exo s n_x interpolate lb ub false nan
                tol maxbsteps smaxit maxit x0 = Ok res /\
    (iti_N res < maxit)%nat /\ tdist exo s n_x (iti_x res) xs <= q ^ iti_N res * tdist exo s n_x x0 xs /\
    (forall k, (k < maxit)%nat -> K * (q ^ k * tdist exo s n_x x0 xs) < tol -> iti_converged res = true /\ (iti_N res <= k)%nat).
Proof.
  intros n_x next a B C exo s interpolate lb ub nan Hev Hn xs lam K Hs Hc Hb Hl HK tol mb sm mi x0 H1 H2 H3 H4 H5 H6 q.
  pose proof (affine_regular n_x next a B C exo s interpolate lb ub nan H1 Hn Hev xs lam K Hs Hc Hb (tdist exo s n_x x0 xs)) as HR.
  assert (T : 0 <= tdist exo s n_x x0 xs).
  { unfold tdist. eapply Rle_trans; [apply Rabs_pos|apply (tnorm_ge _ _ _ _ 0 0 0); lia]. }
  destruct (iti_linear_convergence (affine_transition next) (affine_equation n_x a B C) exo s n_x interpolate lb ub false nan Hev xs _ lam 0 0 K HR Hl
    ltac:(lra) ltac:(lra) ltac:(lra) T tol mb sm mi x0 H1 H2 H3 H4 H5 H6 HK ltac:(lra)) as (res & E & A1 & A2 & A3).
  assert (Q : 1 - (/ 2) ^ (mb - 1) * (1 - (0 + 0 * tdist exo s n_x x0 xs + (1 - (0 + 0 * tdist exo s n_x x0 xs)) * lam ^ 2)) = q).
  { unfold q. replace (0 + 0 * tdist exo s n_x x0 xs) with 0 by ring. ring. }
  rewrite Q in A2, A3. exists res. split; [exact E|]. split; [exact A1|]. split; [exact A2|exact A3].
Qed.

(** ** An example: x = 1 + E[X] / 2, two exogenous states with probabilities 1/4 and 3/4. *)
Definition two_exo : dexo :=
  {| ex_n := 2; ex_node := fun i => [INR i];
     ex_dp := {| dp_n := fun _ => 2%nat; dp_weight := fun _ j => if Nat.eqb j 0 then 1 / 4 else 3 / 4; dp_node := fun _ j => [INR j] |} |}.
Definition by_state (x : tensor) (i j : nat) (S : list R) : list R := [x j 0%nat 0%nat].
Lemma affine_case : 
  linear_rule 2 2 1 1 (control_of by_state) /\
  affine_solution 1 (fun _ s _ => s) (fun _ _ _ _ => -1) (fun _ _ _ _ _ => 1) (fun _ _ _ _ _ => - (1 / 2)) two_exo [[0]] by_state (fun _ _ _ => 2) /\
  affine_contraction 1 (fun _ s _ => s) (fun _ _ _ _ _ => 1) (fun _ _ _ _ _ => - (1 / 2)) two_exo [[0]] by_state (1 / 2) /\
  affine_bound 1 (fun _ s _ => s) (fun _ _ _ _ _ => 1) (fun _ _ _ _ _ => - (1 / 2)) two_exo [[0]] by_state (3 / 2).
Proof.
  split; [|split; [|split]].
  - intros a b p q r H i j S l Hi Hj Hl. unfold control_of, by_state. replace l with 0%nat by lia. cbn [nth]. apply H; lia.
  - intros i n k Hi HN Hk. cbn in Hi, HN. unfold euler, affine_equation, by_state. cbn. lra.
  - intros p q H. change (Nat.max (ex_n two_exo) 1) with 2%nat in *. cbn [length] in *.
    pose proof (tnorm_ge 2 1 1 p 0 0 0 ltac:(lia) ltac:(lia) ltac:(lia)) as P0. pose proof (tnorm_ge 2 1 1 p 1 0 0 ltac:(lia) ltac:(lia) ltac:(lia)) as P1.
    pose proof (Rabs_pos (p 0%nat 0%nat 0%nat)). set (T := tnorm 2 1 1 p) in *.
    apply tnorm_le; [lra|]. intros i n k Hi HN Hk. specialize (H i n k). cbn in H. specialize (H ltac:(lia) ltac:(lia) ltac:(lia)).
    replace n with 0%nat in * by lia. replace k with 0%nat in * by lia. unfold expected_change, by_state in H. cbn in H.
    replace (q i 0%nat 0%nat) with (1 / 8 * p 0%nat 0%nat 0%nat + 3 / 8 * p 1%nat 0%nat 0%nat) by lra.
    eapply Rle_trans; [apply Rabs_triang|]. rewrite !Rabs_mult, (Rabs_pos_eq (1 / 8)), (Rabs_pos_eq (3 / 8)) by lra. lra.
  - intros z i n k Hi HN Hk. change (Nat.max (ex_n two_exo) 1) with 2%nat in *. cbn [length] in *. cbv beta.
    pose proof (tnorm_ge 2 1 1 z 0 0 0 ltac:(lia) ltac:(lia) ltac:(lia)) as P0. pose proof (tnorm_ge 2 1 1 z 1 0 0 ltac:(lia) ltac:(lia) ltac:(lia)) as P1.
    pose proof (tnorm_ge 2 1 1 z i 0 0 Hi ltac:(lia) ltac:(lia)) as P2. set (T := tnorm 2 1 1 z) in *. clearbody T.
    replace n with 0%nat in * by lia. replace k with 0%nat in * by lia. unfold expected_change, by_state. cbn.
    match goal with |- Rabs ?e <= _ => replace e with (z i 0%nat 0%nat + (- (1 / 8) * z 0%nat 0%nat 0%nat + - (3 / 8) * z 1%nat 0%nat 0%nat)) by lra end.
    eapply Rle_trans; [apply Rabs_triang|]. pose proof (Rabs_triang (- (1 / 8) * z 0%nat 0%nat 0%nat) (- (3 / 8) * z 1%nat 0%nat 0%nat)) as Q.
    rewrite !Rabs_mult, (Rabs_left (- (1 / 8))), (Rabs_left (- (3 / 8))) in Q by lra. lra.
Qed.
