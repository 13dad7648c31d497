(** Stationary laws of stochastic matrices: existence, and uniqueness as regularity of the system solved by
    ergodic_distribution. *)
From Coq Require Import String Reals List Arith Lia Lra.
From Verif.Base Require Import Prelude Arrays Sums.
From Verif.Model Require Import LinearSolve Discretization Grids Distributions Processes Ergodic.
From Verif.Spec Require Import Product Markov LinearAlgebra StateGrid Stationary.
From Verif.Proofs Require Import GaussFinal GridProofs ErgodicProofs.
Import ListNotations.
Open Scope R_scope.

Section Laws.
  Variable N : nat.
  Variable P : mat.
  Hypothesis HP : stochastic N P.

  (** Stationary signed measures: their absolute values, positive and negative parts are stationary. *)
  Lemma abs_stationary : forall y, stationary N P y -> stationary N P (fun i => Rabs (y i)).
  Proof.
    intros y HS. destruct HP as (_ & _ & Hpos & Hone). set (p := fun i => Rabs (y i)).
    assert (Hge : forall j, (j < N)%nat -> 0 <= rsum N (fun i => p i * mget P i j) - p j).
    { intros j Hj. unfold p at 2. rewrite <- (HS j Hj). pose proof (rsum_abs N (fun i => y i * mget P i j)) as Q. cbv beta in Q.
      rewrite (rsum_ext N (fun i => Rabs (y i * mget P i j)) (fun i => p i * mget P i j)) in Q.
      - lra.
      - intros i Hi. unfold p. rewrite Rabs_mult, (Rabs_pos_eq (mget P i j)) by (apply Hpos; assumption). reflexivity. }
    assert (HT : rsum N (fun j => rsum N (fun i => p i * mget P i j) - p j) = 0).
    { rewrite rsum_minus, rsum_swap. rewrite (rsum_ext N _ p); [lra|].
      intros i Hi. rewrite rsum_scal, Hone by exact Hi. ring. }
    intros j Hj. pose proof (rsum_nonneg_0 N _ Hge HT j Hj) as Q. cbv beta in Q. lra.
  Qed.
  Lemma stationary_comb : forall y z a b, stationary N P y -> stationary N P z -> stationary N P (fun i => a * y i + b * z i).
  Proof.
    intros y z a b Hy Hz j Hj.
    rewrite (rsum_ext N _ (fun i => a * (y i * mget P i j) + b * (z i * mget P i j))) by (intros; ring).
    rewrite rsum_plus, !rsum_scal, Hy, Hz by exact Hj. reflexivity.
  Qed.

  (** Kernel vectors of the system are the stationary signed measures of total mass zero. *)
  Lemma kernel_stationary : forall y, (0 < N)%nat ->
    (solves N (ergodic_A N P) (fun _ => 0) y <-> stationary N P y /\ rsum N y = 0).
  Proof.
    intros y HN. destruct HP as (_ & _ & _ & Hone).
    assert (Row : forall j, (j < N)%nat -> j <> (N - 1)%nat ->
              mat_vec N (ergodic_A N P) y j = rsum N (fun i => y i * mget P i j) - y j).
    { intros j Hj Hne. unfold mat_vec, ergodic_A. destruct (Nat.eqb_spec j (N - 1)); [contradiction|].
      rewrite (rsum_ext _ _ (fun i => y i * mget P i j - (if Nat.eqb i j then y i else 0)))
        by (intros i _; rewrite (Nat.eqb_sym j i); destruct (Nat.eqb i j); ring).
      rewrite rsum_minus, rsum_delta by exact Hj. reflexivity. }
    assert (Last : mat_vec N (ergodic_A N P) y (N - 1)%nat = rsum N y).
    { unfold mat_vec, ergodic_A. rewrite Nat.eqb_refl. apply rsum_ext. intros; ring. }
    split.
    - intros H. assert (S0 : rsum N y = 0) by (rewrite <- Last; apply H; lia). split; [|exact S0].
      assert (HI : forall j, (j < N)%nat -> j <> (N - 1)%nat -> rsum N (fun i => y i * mget P i j) = y j).
      { intros j Hj Hne. generalize (H j Hj). rewrite (Row j Hj Hne). lra. }
      intros j Hj. destruct (Nat.eq_dec j (N - 1)) as [->|Hne]; [|apply HI; assumption].
      assert (HT : rsum N (fun j => rsum N (fun i => y i * mget P i j)) = rsum N y).
      { rewrite rsum_swap. apply rsum_ext. intros i Hi. rewrite rsum_scal, Hone by exact Hi. ring. }
      clear Row Last H S0. destruct N as [|n]; [lia|]. cbn [Nat.sub] in *. rewrite Nat.sub_0_r in *. cbn [rsum] in HT |- *.
      rewrite (rsum_ext n _ y) in HT by (intros i Hi; apply (HI i); lia). lra.
    - intros (HS & S0) j Hj. destruct (Nat.eq_dec j (N - 1)) as [->|Hne]; [rewrite Last; exact S0|].
      rewrite Row by assumption. rewrite (HS j Hj). ring.
  Qed.

  Lemma law_solves : forall mu, (0 < N)%nat -> stationary_law N P mu -> solves N (ergodic_A N P) (ergodic_B N) mu.
  Proof.
    intros mu HN (HS & _ & S1) j Hj. unfold mat_vec, ergodic_A, ergodic_B. destruct (Nat.eqb_spec j (N - 1)) as [->|Hne].
    - transitivity (rsum N mu); [|exact S1]. apply rsum_ext. intros; ring.
    - rewrite (rsum_ext _ _ (fun i => mu i * mget P i j - (if Nat.eqb i j then mu i else 0)))
        by (intros i _; rewrite (Nat.eqb_sym j i); destruct (Nat.eqb i j); ring).
      rewrite rsum_minus, rsum_delta by exact Hj. rewrite (HS j Hj). ring.
  Qed.

  Lemma rsum_pos : forall y, (forall i, (i < N)%nat -> 0 <= y i) -> (exists i, (i < N)%nat /\ y i <> 0) -> 0 < rsum N y.
  Proof.
    intros y H (i & Hi & Hy). destruct (rsum_nonneg N y H) as [Q|Q]; [exact Q|]. exfalso. apply Hy.
    apply (rsum_nonneg_0 N y H (eq_sym Q) i Hi).
  Qed.
  Lemma normalised : forall y, stationary N P y -> (forall i, (i < N)%nat -> 0 <= y i) -> 0 < rsum N y ->
    stationary_law N P (fun i => y i / rsum N y).
  Proof.
    intros y HS H0 Hs. assert (I : 0 < / rsum N y) by (apply Rinv_0_lt_compat, Hs). split; [|split].
    - intros j Hj. generalize (stationary_comb y y (/ rsum N y) 0 HS HS j Hj). unfold Rdiv.
      rewrite (rsum_ext N (fun i => (/ rsum N y * y i + 0 * y i) * mget P i j) (fun i => y i * / rsum N y * mget P i j)) by (intros; ring).
      lra.
    - intros i Hi. apply Rmult_le_pos; [apply H0, Hi|lra].
    - unfold Rdiv. rewrite rsum_scal_r. field. lra.
  Qed.

  (** A nonzero stationary signed measure of mass zero gives two different laws. *)
  Lemma two_laws : forall y, stationary N P y -> rsum N y = 0 -> (exists i, (i < N)%nat /\ y i <> 0) ->
    exists nu nu', stationary_law N P nu /\ stationary_law N P nu' /\ exists i, (i < N)%nat /\ nu i <> nu' i.
  Proof.
    intros y HS S0 (i0 & Hi0 & Hy0).
    set (p := fun i => / 2 * Rabs (y i) + / 2 * y i). set (q := fun i => / 2 * Rabs (y i) + (- / 2) * y i).
    assert (Hp : stationary N P p) by (apply stationary_comb; [apply abs_stationary|]; exact HS).
    assert (Hq : stationary N P q) by (apply stationary_comb; [apply abs_stationary|]; exact HS).
    assert (Ap : 0 < rsum N (fun i => Rabs (y i))).
    { apply rsum_pos; [intros; apply Rabs_pos|]. exists i0. split; [exact Hi0|]. apply Rabs_no_R0, Hy0. }
    assert (Sp : rsum N p = / 2 * rsum N (fun i => Rabs (y i))) by (unfold p; rewrite rsum_plus, !rsum_scal, S0; ring).
    assert (Sq : rsum N q = / 2 * rsum N (fun i => Rabs (y i))) by (unfold q; rewrite rsum_plus, !rsum_scal, S0; ring).
    exists (fun i => p i / rsum N p), (fun i => q i / rsum N q).
    split; [apply normalised; [exact Hp| |lra]|split; [apply normalised; [exact Hq| |lra]|]].
    - intros i _. unfold p. unfold Rabs. destruct (Rcase_abs (y i)); lra.
    - intros i _. unfold q. unfold Rabs. destruct (Rcase_abs (y i)); lra.
    - exists i0. split; [exact Hi0|]. rewrite Sp, Sq. unfold Rdiv. intros C. apply Rmult_eq_reg_r in C.
      + unfold p, q in C. apply Hy0. lra.
      + apply Rinv_neq_0_compat. lra.
  Qed.

  Lemma stationary_exists : (0 < N)%nat -> exists mu, stationary_law N P mu.
  Proof.
    intros HN. pose proof (gauss_solve_correct N (ergodic_A N P) (ergodic_B N)) as G.
    destruct (gauss_solve N (ergodic_A N P) (ergodic_B N)) as [x|e].
    - destruct G as (S1 & S2 & _). destruct (stationary_of_system N P x HN HP S1) as [A B].
      exists x. split; [exact B|]. split; [|exact A]. apply (nonneg_of_unique N P x); assumption.
    - destruct G as (y & Hy & K). apply kernel_stationary in K; [|exact HN]. destruct K as (HS & S0).
      destruct (two_laws y HS S0 Hy) as (nu & _ & L & _). exists nu. exact L.
  Qed.

  Lemma unique_regular : (0 < N)%nat -> (only_law N P <-> ~ singular N (ergodic_A N P)).
  Proof.
    intros HN. split.
    - intros U (y & Hy & K). apply kernel_stationary in K; [|exact HN]. destruct K as (HS & S0).
      destruct (two_laws y HS S0 Hy) as (nu & nu' & L & L' & i & Hi & D). apply D. apply (U nu nu' L L' i Hi).
    - intros R nu nu' L L' i Hi. destruct (Req_dec (nu i) (nu' i)) as [E|E]; [exact E|]. exfalso. apply R.
      exists (fun k => nu k - nu' k). split; [exists i; split; [exact Hi|lra]|].
      intros j Hj. generalize (law_solves nu HN L j Hj) (law_solves nu' HN L' j Hj). unfold mat_vec.
      rewrite (rsum_ext N (fun k => ergodic_A N P j k * (nu k - nu' k)) (fun k => ergodic_A N P j k * nu k - ergodic_A N P j k * nu' k))
        by (intros; ring). rewrite rsum_minus. lra.
  Qed.

  (** A node reached from everywhere in one step makes the law unique. *)
  Lemma reached_unique : forall j0, (j0 < N)%nat -> (forall i, (i < N)%nat -> 0 < mget P i j0) -> only_law N P.
  Proof.
    intros j0 Hj0 Hpos nu nu' (S1 & P1 & M1) (S2 & P2 & M2) i Hi.
    set (y := fun k => 1 * nu k + (-1) * nu' k).
    assert (Sy : stationary N P y) by (apply stationary_comb; assumption).
    assert (Z : rsum N y = 0) by (unfold y; rewrite rsum_plus, !rsum_scal, M1, M2; ring).
    set (p := fun k => / 2 * Rabs (y k) + / 2 * y k). set (q := fun k => / 2 * Rabs (y k) + (- / 2) * y k).
    assert (Hp : stationary N P p) by (apply stationary_comb; [apply abs_stationary|]; exact Sy).
    assert (Hq : stationary N P q) by (apply stationary_comb; [apply abs_stationary|]; exact Sy).
    assert (Pp : forall k, 0 <= p k) by (intros k; unfold p, Rabs; destruct (Rcase_abs (y k)); lra).
    assert (Pq : forall k, 0 <= q k) by (intros k; unfold q, Rabs; destruct (Rcase_abs (y k)); lra).
    assert (D : p j0 = 0 \/ q j0 = 0) by (unfold p, q, Rabs; destruct (Rcase_abs (y j0)); [left|right]; lra).
    assert (Van : forall z, stationary N P z -> (forall k, 0 <= z k) -> z j0 = 0 -> forall k, (k < N)%nat -> z k = 0).
    { intros z Sz Pz Z0 k Hk. generalize (Sz j0 Hj0). rewrite Z0. intros Q.
      assert (T := rsum_nonneg_0 N (fun i => z i * mget P i j0)). cbv beta in T.
      assert (zk : z k * mget P k j0 = 0).
      { apply T; [|exact Q|exact Hk]. intros m Hm. apply Rmult_le_pos; [apply Pz|left; apply Hpos, Hm]. }
      apply Rmult_integral in zk. destruct zk as [zk|zk]; [exact zk|]. generalize (Hpos k Hk). lra. }
    assert (A : rsum N (fun k => Rabs (y k)) = 0).
    { destruct D as [D|D].
      - assert (V := Van p Hp Pp D). assert (rsum N p = 0) by (apply rsum_0; exact V).
        assert (rsum N p = / 2 * rsum N (fun i => Rabs (y i)) + / 2 * rsum N y) by (unfold p; rewrite rsum_plus, !rsum_scal; ring). lra.
      - assert (V := Van q Hq Pq D). assert (rsum N q = 0) by (apply rsum_0; exact V).
        assert (rsum N q = / 2 * rsum N (fun i => Rabs (y i)) + - / 2 * rsum N y) by (unfold q; rewrite rsum_plus, !rsum_scal; ring). lra. }
    assert (B : Rabs (y i) = 0) by (apply (rsum_nonneg_0 N (fun k => Rabs (y k))); [intros; apply Rabs_pos|exact A|exact Hi]).
    unfold y in B. unfold Rabs in B. destruct (Rcase_abs _) in B; lra.
  Qed.
End Laws.

Lemma ergodic_unique : forall g solve N_m exo dr grid dp Pi,
    exact_solver solve -> complete_solver solve -> wf_grid grid -> (forall i, (i < N_m)%nat -> dp_n dp i = N_m) ->
    (forall i j, (i < N_m)%nat -> (j < N_m)%nat -> 0 <= dp_weight dp i j) ->
    (forall i, (i < N_m)%nat -> rsum N_m (dp_weight dp i) = 1) -> (0 < N_m)%nat ->
    ergodic_matrix g N_m exo dr grid dp = Ok Pi ->
    let N := (N_m * nrow (u_nodes grid))%nat in
    (exists mu, stationary_law N Pi mu) /\
    (only_law N Pi <-> exists mu, ergodic_distribution g solve N_m exo dr grid dp = Ok (Pi, mu) /\ stationary_law N Pi mu).
Proof.
  intros g solve N_m exo dr grid dp Pi Hex Hco HG Hn H0 H1 HNm EP N.
  destruct (ergodic_matrix_spec g N_m exo dr grid dp HG Hn H0 H1) as (P & EP' & HP & _).
  rewrite EP in EP'. inversion EP'; subst P; clear EP'. fold N in HP.
  assert (HN : (0 < N)%nat).
  { unfold N. apply Nat.mul_pos_pos; [exact HNm|]. apply (wf_grid_facts grid HG). }
  split; [apply stationary_exists; assumption|].
  rewrite (unique_regular N Pi HP HN). split.
  - intros R. destruct (solve N (ergodic_A N Pi) (ergodic_B N)) as [x|e] eqn:E; [|exfalso; apply R; apply (Hco _ _ _ _ E)].
    exists x. assert (Ed : ergodic_distribution g solve N_m exo dr grid dp = Ok (Pi, x)).
    { unfold ergodic_distribution. rewrite EP. cbn [bind]. fold N.
      destruct (Nat.eqb_spec N 0); [lia|]. rewrite E. reflexivity. }
    split; [exact Ed|]. destruct (ergodic_law g solve N_m exo dr grid dp Pi x Hex HG Hn H0 H1 Ed) as (_ & A & B & C).
    split; [exact A|]. split; [exact C|exact B].
  - intros (mu & Ed & _) (y & (i & Hi & Hy) & K). unfold ergodic_distribution in Ed. rewrite EP in Ed. cbn [bind] in Ed. fold N in Ed.
    destruct (Nat.eqb_spec N 0); [lia|]. destruct (solve N (ergodic_A N Pi) (ergodic_B N)) as [x|e] eqn:E; [|discriminate Ed].
    destruct (Hex _ _ _ _ E) as (S1 & S2). apply Hy.
    assert (Q : x i + y i = x i).
    { apply (S2 (fun k => x k + y k)); [|exact Hi]. intros j Hj. unfold mat_vec.
      rewrite (rsum_ext N _ (fun k => ergodic_A N Pi j k * x k + ergodic_A N Pi j k * y k)) by (intros; ring).
      rewrite rsum_plus. generalize (S1 j Hj) (K j Hj). unfold mat_vec. lra. }
    lra.
Qed.

Lemma ergodic_unique_iid : forall g solve m dr grid dp Pi,
    exact_solver solve -> complete_solver solve -> wf_grid grid ->
    (forall j, (j < dp_n dp 0)%nat -> 0 <= dp_weight dp 0 j) ->
    rsum (dp_n dp 0) (dp_weight dp 0) = 1 ->
    ergodic_matrix_iid g m dr grid dp = Ok Pi ->
    let N := nrow (u_nodes grid) in
    (exists mu, stationary_law N Pi mu) /\
    (only_law N Pi <-> exists mu, ergodic_distribution_iid g solve m dr grid dp = Ok (Pi, mu) /\ stationary_law N Pi mu).
Proof.
  intros g solve m dr grid dp Pi Hex Hco HG H0 H1 EP N.
  destruct (ergodic_matrix_iid_spec g m dr grid dp HG H0 H1) as (P & EP' & HP & _).
  rewrite EP in EP'. inversion EP'; subst P; clear EP'. fold N in HP.
  assert (HN : (0 < N)%nat) by apply (wf_grid_facts grid HG).
  split; [apply stationary_exists; assumption|].
  rewrite (unique_regular N Pi HP HN). split.
  - intros R. destruct (solve N (ergodic_A N Pi) (ergodic_B N)) as [x|e] eqn:E; [|exfalso; apply R; apply (Hco _ _ _ _ E)].
    exists x. assert (Ed : ergodic_distribution_iid g solve m dr grid dp = Ok (Pi, x)).
    { unfold ergodic_distribution_iid. rewrite EP. cbn [bind]. fold N.
      destruct (Nat.eqb_spec N 0); [lia|]. rewrite E. reflexivity. }
    split; [exact Ed|]. destruct (ergodic_law_iid g solve m dr grid dp Pi x Hex HG H0 H1 Ed) as (_ & A & B & C).
    split; [exact A|]. split; [exact C|exact B].
  - intros (mu & Ed & _) (y & (i & Hi & Hy) & K). unfold ergodic_distribution_iid in Ed. rewrite EP in Ed. cbn [bind] in Ed. fold N in Ed.
    destruct (Nat.eqb_spec N 0); [lia|]. destruct (solve N (ergodic_A N Pi) (ergodic_B N)) as [x|e] eqn:E; [|discriminate Ed].
    destruct (Hex _ _ _ _ E) as (S1 & S2). apply Hy.
    assert (Q : x i + y i = x i).
    { apply (S2 (fun k => x k + y k)); [|exact Hi]. intros j Hj. unfold mat_vec.
      rewrite (rsum_ext N _ (fun k => ergodic_A N Pi j k * x k + ergodic_A N Pi j k * y k)) by (intros; ring).
      rewrite rsum_plus. generalize (S1 j Hj) (K j Hj). unfold mat_vec. lra. }
    lra.
Qed.

Lemma gauss_complete_solver : complete_solver gauss_solve.
Proof. intros n A b e E. pose proof (gauss_solve_correct n A b) as H. rewrite E in H. exact H. Qed.

(** Sums over pairs (i,n) numbered i*M+n. *)
Lemma rsum_pairs : forall a m (F : nat -> R), rsum (a * m) F = rsum a (fun i => rsum m (fun n => F (i * m + n)%nat)).
Proof.
  intros a m F. rewrite <- (rsum_prod a m (fun i n => F (i * m + n)%nat)). apply rsum_ext. intros k Hk.
  f_equal. assert (m <> 0)%nat by (destruct m; [rewrite Nat.mul_0_r in Hk|]; lia).
  rewrite (Nat.div_mod k m) at 1 by assumption. lia.
Qed.

Lemma ergodic_marginal : forall g solve N_m exo dr grid dp Pi mu,
    exact_solver solve -> wf_grid grid -> (forall i, (i < N_m)%nat -> dp_n dp i = N_m) ->
    (forall i j, (i < N_m)%nat -> (j < N_m)%nat -> 0 <= dp_weight dp i j) ->
    (forall i, (i < N_m)%nat -> rsum N_m (dp_weight dp i) = 1) ->
    ergodic_distribution g solve N_m exo dr grid dp = Ok (Pi, mu) ->
    let N_s := nrow (u_nodes grid) in
    let p i := rsum N_s (fun n => mu (i * N_s + n)%nat) in
    stationary_law N_m (Mat N_m N_m (dp_weight dp)) p.
Proof.
  intros g solve N_m exo dr grid dp Pi mu Hex HG Hn H0 H1 Ed N_s p.
  destruct (ergodic_law g solve N_m exo dr grid dp Pi mu Hex HG Hn H0 H1 Ed) as (EP & S & M1 & M0). fold N_s in S, M1, M0.
  destruct (ergodic_matrix_stochastic g N_m exo dr grid dp HG Hn H0 H1) as (P & EP' & HP & Hm).
  rewrite EP in EP'. inversion EP'; subst P; clear EP'. fold N_s in HP, Hm.
  split; [|split].
  - intros j Hj. cbn [mget]. unfold p at 2.
    rewrite (rsum_ext N_s (fun n => mu (j * N_s + n)%nat)
      (fun k => rsum N_m (fun i => rsum N_s (fun n => mu (i * N_s + n)%nat * mget Pi (i * N_s + n) (j * N_s + k)))))
      by (intros k Hk; rewrite <- (S (j * N_s + k)%nat) by (apply flat_lt; assumption); rewrite rsum_pairs; reflexivity).
    rewrite rsum_swap. apply rsum_ext. intros i Hi. rewrite rsum_swap. unfold p.
    rewrite <- rsum_scal_r. apply rsum_ext. intros n Hn'. rewrite rsum_scal, Hm by assumption. reflexivity.
  - intros i Hi. unfold p. apply rsum_nonneg. intros n Hn'. apply M0, flat_lt; assumption.
  - unfold p. rewrite <- rsum_pairs. exact M1.
Qed.

Lemma ergodic_means : forall g solve N_m exo dr grid dp Pi mu c,
    exact_solver solve -> wf_grid grid -> (forall i, (i < N_m)%nat -> dp_n dp i = N_m) ->
    (forall i j, (i < N_m)%nat -> (j < N_m)%nat -> 0 <= dp_weight dp i j) ->
    (forall i, (i < N_m)%nat -> rsum N_m (dp_weight dp i) = 1) ->
    ergodic_distribution g solve N_m exo dr grid dp = Ok (Pi, mu) ->
    (c < length (u_min grid))%nat ->
    let N_s := nrow (u_nodes grid) in
    let s n := row (u_nodes grid) n in
    let s' i n j := g (exo i) (s n) (dr i (s n)) (dp_node dp i j) in
    (forall i j n, (i < N_m)%nat -> (j < N_m)%nat -> (n < N_s)%nat ->
       nth c (u_min grid) 0 <= nth c (s' i n j) 0 <= nth c (u_max grid) 0) ->
    rsum N_m (fun i => rsum N_s (fun n => mu (i * N_s + n)%nat * rsum N_m (fun j => dp_weight dp i j * nth c (s' i n j) 0)))
    = rsum N_m (fun i => rsum N_s (fun n => mu (i * N_s + n)%nat * mget (u_nodes grid) n c)).
Proof.
  intros g solve N_m exo dr grid dp Pi mu c Hex HG Hn H0 H1 Ed Hc N_s s s' Hin.
  destruct (ergodic_law g solve N_m exo dr grid dp Pi mu Hex HG Hn H0 H1 Ed) as (EP & S & M1 & M0). fold N_s in S, M1, M0.
  destruct (ergodic_matrix_mean g N_m exo dr grid dp HG Hn H0 H1) as (P & EP' & Hm).
  rewrite EP in EP'. inversion EP'; subst P; clear EP'. fold N_s in Hm.
  rewrite (rsum_ext N_m (fun i => rsum N_s (fun n => mu (i * N_s + n)%nat * mget (u_nodes grid) n c))
    (fun j => rsum N_s (fun k => rsum N_m (fun i => rsum N_s (fun n =>
       mu (i * N_s + n)%nat * mget Pi (i * N_s + n) (j * N_s + k) * mget (u_nodes grid) k c))))).
  2:{ intros j Hj. apply rsum_ext. intros k Hk. rewrite <- (S (j * N_s + k)%nat) by (apply flat_lt; assumption).
      rewrite rsum_pairs, <- rsum_scal_r. apply rsum_ext. intros i Hi. rewrite <- rsum_scal_r. reflexivity. }
  transitivity (rsum N_m (fun j => rsum N_m (fun i => rsum N_s (fun n => mu (i * N_s + n)%nat * (dp_weight dp i j * nth c (s' i n j) 0))))).
  { symmetry. rewrite rsum_swap. apply rsum_ext. intros i Hi. rewrite rsum_swap. apply rsum_ext. intros n Hn'. rewrite rsum_scal. reflexivity. }
  symmetry. apply rsum_ext. intros j Hj. rewrite rsum_swap. apply rsum_ext. intros i Hi. rewrite rsum_swap. apply rsum_ext. intros n Hn'.
  rewrite (rsum_ext N_s _ (fun k => mu (i * N_s + n)%nat * (mget Pi (i * N_s + n) (j * N_s + k) * mget (u_nodes grid) k c))) by (intros; ring).
  rewrite rsum_scal. f_equal. apply (Hm i j n c Hi Hj Hn' Hc). apply Hin; assumption.
Qed.

(** A state that never moves: every node carries a stationary law and the system has no unique solution. *)
Lemma ergodic_several : exists grid dp e, wf_grid grid /\
    (forall j, (j < dp_n dp 0)%nat -> 0 <= dp_weight dp 0 j) /\ rsum (dp_n dp 0) (dp_weight dp 0) = 1 /\
    ergodic_distribution_iid (fun _ s _ _ => s) gauss_solve [0] (fun _ => []) grid dp = Err e.
Proof.
  destruct (uniform_grid_spec [0] [1] [2%nat] ltac:(discriminate) eq_refl eq_refl ltac:(repeat constructor))
    as (grid & axes & E & Em & EM & En & Hrn & Hcn & _).
  assert (HG : wf_grid grid).
  { unfold wf_grid. rewrite Em, EM, En. repeat split; try exact E; try (left; reflexivity); try (repeat constructor).
    intros [|c] Hc; simpl in *; [lra|lia]. }
  set (g := fun (_ s _ _ : list R) => s).
  set (dp := iid_process (Equi (Mat 2 1 (fun i _ => INR i)))).
  assert (Hw0 : forall j, (j < dp_n dp 0)%nat -> 0 <= dp_weight dp 0 j) by (intros j _; cbn; lra).
  assert (Hw1 : rsum (dp_n dp 0) (dp_weight dp 0) = 1) by (cbn; lra).
  destruct (ergodic_matrix_iid_spec g [0] (fun _ => []) grid dp HG Hw0 Hw1) as (Pi & EP & HS & HM).
  destruct (wf_grid_facts grid HG) as (_ & _ & Hr & _ & Hnode). rewrite En in Hr. cbn in Hr.
  destruct (ergodic_distribution_iid g gauss_solve [0] (fun _ => []) grid dp) as [[P mu]|e] eqn:Ed.
  2:{ exists grid, dp, e. split; [exact HG|]. split; [exact Hw0|]. split; [exact Hw1|]. exact Ed. }
  exfalso. destruct (ergodic_law_iid g gauss_solve [0] (fun _ => []) grid dp P mu gauss_exact_solver HG Hw0 Hw1 Ed) as (EP' & A & B & C).
  rewrite EP in EP'. inversion EP'; subst P; clear EP'.
  assert (U : only_law (nrow (u_nodes grid)) Pi).
  { apply (ergodic_unique_iid g gauss_solve [0] (fun _ => []) grid dp Pi gauss_exact_solver gauss_complete_solver HG Hw0 Hw1 EP).
    exists mu. split; [exact Ed|]. split; [exact A|]. split; [exact C|exact B]. }
  rewrite Hr in HS, HM, Hnode, U. rewrite Em in HM, Hnode. cbn [List.length nth] in HM, Hnode.
  assert (N0 : mget (u_nodes grid) 0 0 = 0).
  { rewrite Hnode by (clear; lia). rewrite EM, En, coord_1. cbn [nth INR]. field. }
  assert (N1 : mget (u_nodes grid) 1 0 = 1).
  { rewrite Hnode by (clear; lia). rewrite EM, En, coord_1. cbn [nth INR]. field. }
  assert (Hrow : forall n, row (u_nodes grid) n = [mget (u_nodes grid) n 0]) by (intros n; unfold row; rewrite Hcn; reflexivity).
  assert (HM0 := HM 0%nat 0%nat ltac:(lia) ltac:(lia)). assert (HM1 := HM 1%nat 0%nat ltac:(lia) ltac:(lia)).
  cbv zeta in HM0, HM1. rewrite Hrow in HM0, HM1. rewrite EM in HM0, HM1. unfold g in HM0, HM1.
  cbn [map nth] in HM0, HM1. rewrite N0 in HM0. rewrite N1 in HM1.
  specialize (HM0 ltac:(intros; lra)). specialize (HM1 ltac:(intros; lra)). cbn [rsum] in HM0, HM1. rewrite N0, N1 in HM0, HM1.
  change (dp_n dp 0) with 2%nat in HM0, HM1. cbn in HM0, HM1.
  destruct HS as (_ & _ & _ & HS). assert (S0 := HS 0%nat ltac:(lia)). assert (S1 := HS 1%nat ltac:(lia)). cbn [rsum] in S0, S1.
  assert (P00 : mget Pi 0 0 = 1) by lra. assert (P01 : mget Pi 0 1 = 0) by lra.
  assert (P10 : mget Pi 1 0 = 0) by lra. assert (P11 : mget Pi 1 1 = 1) by lra.
  assert (Q : 1 = 0).
  { apply (U (fun i => if Nat.eqb i 0 then 1 else 0) (fun i => if Nat.eqb i 0 then 0 else 1)) with (i := 0%nat); [| |lia].
    - split; [|split].
      + intros [|[|j]] Hj; [| |lia]; cbn [rsum Nat.eqb]; rewrite ?P00, ?P01, ?P10, ?P11; lra.
      + intros [|[|j]] Hj; cbn; lra.
      + cbn; lra.
    - split; [|split].
      + intros [|[|j]] Hj; [| |lia]; cbn [rsum Nat.eqb]; rewrite ?P00, ?P01, ?P10, ?P11; lra.
      + intros [|[|j]] Hj; cbn; lra.
      + cbn; lra. }
  lra.
Qed.
