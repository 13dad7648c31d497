From Coq Require Import String Reals List Arith Lia Lra Bool.
From Verif.Base Require Import Prelude Sums Arrays.
From Verif.Spec Require Import Product Law Markov.
From Verif.Model Require Import Discretization Grids Distributions Processes.
From Verif.Proofs Require Import Markov Rouwenhorst Multidim DiscretizationFinal LawProofs LawFinal.
Import ListNotations.
Open Scope R_scope.

Lemma Forall2_len : forall A B (Q : A -> B -> Prop) l1 l2, Forall2 Q l1 l2 -> length l1 = length l2.
Proof. induction 1; simpl; congruence. Qed.

(** ** iteritems *)
Lemma iteritems_in : forall p eps i w x,
    In (w, x) (iteritems p eps i) <->
    exists j, (j < dp_n p i)%nat /\ w = dp_weight p i j /\ x = dp_node p i j /\ eps < w.
Proof.
  intros p eps i w x. unfold iteritems. rewrite in_flat_map. split.
  - intros (j & Hj & H). apply in_seq in Hj. destruct (Rlt_dec eps (dp_weight p i j)); [|destruct H].
    destruct H as [H|[]]. injection H as <- <-. exists j. repeat split; [lia|assumption].
  - intros (j & Hj & -> & -> & He). exists j. split; [apply in_seq; lia|].
    destruct (Rlt_dec eps (dp_weight p i j)); [left; reflexivity|contradiction].
Qed.

Lemma iteritems_sum : forall p eps i f,
    lsum (map (fun wx => fst wx * f (snd wx)) (iteritems p eps i))
    = rsum (dp_n p i) (fun j => if Rlt_dec eps (dp_weight p i j) then dp_weight p i j * f (dp_node p i j) else 0).
Proof.
  intros p eps i f. unfold iteritems.
  assert (E : forall (g : nat -> list (R * list R)) l,
    map (fun wx : R * list R => fst wx * f (snd wx)) (flat_map g l)
    = flat_map (fun j => map (fun wx => fst wx * f (snd wx)) (g j)) l).
  { intros g l. induction l as [|a l IH]; simpl; [reflexivity|]. rewrite map_app, IH. reflexivity. }
  rewrite E, lsum_flat_map, <- lsum_seq. f_equal. apply map_ext. intros j.
  destruct (Rlt_dec _ _); simpl; lra.
Qed.

Lemma iteritems_error : forall p eps i f B,
    0 <= eps -> (forall j, (j < dp_n p i)%nat -> 0 <= dp_weight p i j) ->
    (forall j, (j < dp_n p i)%nat -> Rabs (f (dp_node p i j)) <= B) ->
    Rabs (rsum (dp_n p i) (fun j => dp_weight p i j * f (dp_node p i j))
          - lsum (map (fun wx => fst wx * f (snd wx)) (iteritems p eps i)))
    <= INR (dp_n p i) * (eps * B).
Proof.
  intros p eps i f B He Hw HB. rewrite iteritems_sum, <- rsum_minus, <- rsum_const.
  eapply Rle_trans; [apply rsum_abs|]. apply rsum_le. intros j Hj.
  assert (H0 : 0 <= Rabs (f (dp_node p i j))) by apply Rabs_pos. specialize (HB j Hj). specialize (Hw j Hj).
  destruct (Rlt_dec eps (dp_weight p i j)).
  - replace (_ - _) with 0 by ring. rewrite Rabs_R0. apply Rmult_le_pos; lra.
  - rewrite Rminus_0_r, Rabs_mult, (Rabs_pos_eq (dp_weight p i j)) by exact Hw.
    apply Rmult_le_compat; lra.
Qed.

Lemma mc_gdp_same : forall c, nrow (fst c) = ncol (snd c) ->
    forall eps i, iteritems (gdp_process (mc_to_gdp c)) eps i = iteritems (mc_process c) eps i.
Proof. intros c H eps i. unfold iteritems. cbn [dp_n dp_weight dp_node gdp_process mc_to_gdp gdp_k mc_process]. rewrite H. reflexivity. Qed.

(** ** Constant processes *)
Lemma constant_process_spec : forall mu N f,
    (exists d, constant_iid mu = Ok d /\ iid_integrate d f = f (row (Mat 1 (vlen mu) (fun _ j => vget mu j)) 0)) /\
    stochastic N (snd (constant_mc mu N)) /\
    (forall i, (i < N)%nat ->
       expect N (mget (snd (constant_mc mu N)) i) (row (fst (constant_mc mu N))) f
       = f (row (Mat 1 (vlen mu) (fun _ j => vget mu j)) 0)).
Proof.
  intros mu N f. split; [|split].
  - eexists. split; [reflexivity|]. rewrite integrate_sum. unfold expect, iid_n. cbn [iid_points nrow rsum iid_weight vget].
    unfold iid_point. cbn [iid_points]. ring.
  - unfold constant_mc; cbn [snd]. split; [reflexivity|]. split; [reflexivity|]. split; cbn [mget].
    + intros i j _ _. destruct (Nat.eqb i j); lra.
    + intros i Hi. rewrite (rsum_single N i _ Hi).
      * rewrite Nat.eqb_refl. reflexivity.
      * intros k _ Hk. destruct (Nat.eqb_spec i k); [congruence|reflexivity].
  - intros i Hi. unfold expect, constant_mc; cbn [fst snd mget]. rewrite (rsum_single N i _ Hi).
    + rewrite Nat.eqb_refl. rewrite Rmult_1_l. reflexivity.
    + intros k _ Hk. destruct (Nat.eqb_spec i k); [congruence|ring].
Qed.

(** ** choice *)
Lemma choice_loop_spec : forall x cumul fuel i,
    (i <= choice_loop x cumul fuel i <= i + fuel)%nat /\
    (forall k, (i <= k < choice_loop x cumul fuel i)%nat -> cumul k <= x) /\
    ((choice_loop x cumul fuel i < i + fuel)%nat -> x < cumul (choice_loop x cumul fuel i)).
Proof.
  intros x cumul fuel. induction fuel as [|fuel IH]; intros i; cbn [choice_loop].
  - repeat split; try lia.
  - destruct (Rlt_dec x (cumul i)) as [H|H].
    + repeat split; try lia; auto.
    + destruct (IH (S i)) as (A & B & C). split; [lia|]. split.
      * intros k Hk. destruct (Nat.eq_dec k i) as [->|]; [lra|]. apply B. lia.
      * intros Hlt. apply C. lia.
Qed.

Lemma choice_first : forall x n cumul,
    (choice x n cumul <= n)%nat /\
    (forall k, (k < choice x n cumul)%nat -> cumul k <= x) /\
    ((choice x n cumul < n)%nat -> x < cumul (choice x n cumul)).
Proof.
  intros x n cumul. destruct (choice_loop_spec x cumul n 0) as (A & B & C). unfold choice.
  split; [lia|]. split; [intros k Hk; apply B; lia|]. intros H. apply C. lia.
Qed.

Lemma cum_mono : forall p n, (forall j, (j < n)%nat -> 0 <= p j) ->
    forall a b, (a <= b)%nat -> (b <= n)%nat -> rsum a p <= rsum b p.
Proof.
  intros p n Hp a b Hab Hb. replace b with (a + (b - a))%nat by lia. rewrite rsum_split.
  assert (0 <= rsum (b - a) (fun i => p (a + i)%nat)) by (apply rsum_nonneg; intros; apply Hp; lia). lra.
Qed.

Lemma choice_interval : forall p n u j,
    (forall k, (k < n)%nat -> 0 <= p k) -> 0 <= u -> (j < n)%nat ->
    (choice u n (fun k => rsum (S k) p) = j <-> rsum j p <= u < rsum (S j) p).
Proof.
  intros p n u j Hp Hu Hj. destruct (choice_first u n (fun k => rsum (S k) p)) as (A & B & C).
  set (c := choice u n (fun k => rsum (S k) p)) in *. split.
  - intros E. rewrite E in *. split; [|apply C; exact Hj].
    destruct j as [|j']; [simpl; exact Hu|]. apply B. lia.
  - intros [H1 H2]. destruct (lt_eq_lt_dec c j) as [[H|H]|H]; [|exact H|].
    + assert (u < rsum (S c) p) by (apply C; lia).
      pose proof (cum_mono p n Hp (S c) j ltac:(lia) ltac:(lia)). lra.
    + specialize (B j H). cbv beta in B. lra.
Qed.

Lemma choice_valid : forall p n u, rsum n p = 1 -> u < 1 -> (0 < n)%nat ->
    (choice u n (fun k => rsum (S k) p) < n)%nat.
Proof.
  intros p n u Hs Hu Hn. destruct (choice_first u n (fun k => rsum (S k) p)) as (A & B & C).
  destruct (Nat.eq_dec (choice u n (fun k => rsum (S k) p)) n) as [E|]; [|lia].
  rewrite E in B. specialize (B (n - 1)%nat ltac:(lia)). cbv beta in B. replace (S (n - 1)) with n in B by lia. lra.
Qed.

(** ** simulate_mc_indices *)
Definition follows (P : mat) (k T1 n : nat) (rand : nat -> R) (i0 : nat -> nat) (out : nat -> nat -> nat) (upto : nat) : Prop :=
  out 0%nat n = i0 n /\
  (forall t, (t <= upto)%nat -> (out t n < k)%nat) /\
  (forall t, (t < upto)%nat ->
     rsum (out (S t) n) (mget P (out t n)) <= rand (n * T1 + t)%nat < rsum (S (out (S t) n)) (mget P (out t n))).

Lemma simulate_indices_spec : forall P k N T i0 rand,
    stochastic k P -> (1 <= T)%nat -> (forall n, (n < N)%nat -> (i0 n < k)%nat) ->
    (forall m, 0 <= rand m < 1) ->
    exists out, simulate_mc_indices (cumsum_rows P) N T i0 rand = Ok out /\
      forall n, (n < N)%nat -> follows P k (T - 1) n rand i0 out (T - 1).
Proof.
  intros P k N T i0 rand (Pr & Pc & Pn & Ps) HT Hi Hr.
  destruct T as [|T1]; [lia|]. replace (S T1 - 1)%nat with T1 by lia.
  unfold simulate_mc_indices. cbn [cumsum_rows nrow]. rewrite Pr.
  set (init := fun t n => match t with O => i0 n | S _ => 0%nat end).
  set (inner := fun n t out =>
     if Nat.ltb (out t n) k
     then Ok (upd2 out (S t) n (choice (rand (n * T1 + t)%nat) k (mget (cumsum_rows P) (out t n)))) else Err ExcIndex).
  (* one trajectory *)
  assert (I : forall n m out, (n < N)%nat -> (m <= T1)%nat -> out 0%nat n = i0 n ->
     exists out', for_range_res m (inner n) out = Ok out' /\ follows P k T1 n rand i0 out' m /\
        forall t n', n' <> n -> out' t n' = out t n').
  { intros n m out Hn Hm H0. induction m as [|m IH].
    - exists out. split; [reflexivity|]. split; [|reflexivity]. split; [exact H0|]. split.
      + intros t Ht. replace t with 0%nat by lia. rewrite H0. apply Hi, Hn.
      + intros t Ht. lia.
    - destruct (IH ltac:(lia)) as (out' & E & (F0 & F1 & F2) & Fo). cbn [for_range_res]. rewrite E. cbn [bind].
      unfold inner at 1. pose proof (F1 m ltac:(lia)) as Hlt.
      destruct (Nat.ltb_spec (out' m n) k); [|lia].
      eexists. split; [reflexivity|].
      set (ch := choice (rand (n * T1 + m)%nat) k (mget (cumsum_rows P) (out' m n))).
      assert (Hk0 : (0 < k)%nat) by lia.
      assert (Hch : (ch < k)%nat).
      { apply (choice_valid (mget P (out' m n)) k); [apply Ps; exact Hlt|apply Hr|exact Hk0]. }
      assert (Hint : rsum ch (mget P (out' m n)) <= rand (n * T1 + m)%nat < rsum (S ch) (mget P (out' m n))).
      { apply (choice_interval (mget P (out' m n)) k); [intros; apply Pn; assumption|apply Hr|exact Hch|reflexivity]. }
      split; [split; [|split]|].
      + rewrite upd2_other by lia. exact F0.
      + intros t Ht. destruct (Nat.eq_dec t (S m)) as [->|Hne].
        * rewrite upd2_same. exact Hch.
        * rewrite upd2_other by lia. apply F1. lia.
      + intros t Ht. destruct (Nat.eq_dec t m) as [->|Hne].
        * rewrite upd2_same. rewrite upd2_other by lia. exact Hint.
        * rewrite !upd2_other by lia. apply F2. lia.
      + intros t n' Hn'. rewrite upd2_other by (right; exact Hn'). apply Fo, Hn'. }
  assert (O : forall m, (m <= N)%nat ->
     exists out, for_range_res m (fun n out => for_range_res T1 (inner n) out) init = Ok out /\
       (forall n, (n < m)%nat -> follows P k T1 n rand i0 out T1) /\
       (forall n, (m <= n)%nat -> out 0%nat n = i0 n)).
  { induction m as [|m IH]; intros Hm.
    - exists init. split; [reflexivity|]. split; [intros; lia|reflexivity].
    - destruct (IH ltac:(lia)) as (out & E & F & G). cbn [for_range_res]. rewrite E. cbn [bind].
      destruct (I m T1 out ltac:(lia) (le_n _) (G m (le_n _))) as (out' & E' & F' & Fo).
      exists out'. split; [exact E'|]. split.
      + intros n Hn. destruct (Nat.eq_dec n m) as [->|Hne]; [exact F'|].
        destruct (F n ltac:(lia)) as (A0 & A1 & A2). split; [|split].
        * rewrite Fo by exact Hne. exact A0.
        * intros t Ht. rewrite Fo by exact Hne. apply A1, Ht.
        * intros t Ht. rewrite !Fo by exact Hne. apply A2, Ht.
      + intros n Hn. rewrite Fo by lia. apply G. lia. }
  destruct (O N (le_n _)) as (out & E & F & _). exists out. split; [exact E|exact F].
Qed.

Lemma simulate_valid : forall P k N T i0 rand,
    stochastic k P -> (1 <= T)%nat -> (forall n, (n < N)%nat -> (i0 n < k)%nat) ->
    (forall m, 0 <= rand m < 1) ->
    exists out, simulate_mc_indices (cumsum_rows P) N T i0 rand = Ok out /\
      forall n, (n < N)%nat -> out 0%nat n = i0 n /\ forall t, (t < T)%nat -> (out t n < k)%nat.
Proof.
  intros P k N T i0 rand H1 H2 H3 H4. destruct (simulate_indices_spec P k N T i0 rand H1 H2 H3 H4) as (out & E & F).
  exists out. split; [exact E|]. intros n Hn. destruct (F n Hn) as (A & B & _). split; [exact A|].
  intros t Ht. apply B. lia.
Qed.

Lemma simulate_transitions : forall P k N T i0 rand out,
    stochastic k P -> (1 <= T)%nat -> (forall n, (n < N)%nat -> (i0 n < k)%nat) ->
    (forall m, 0 <= rand m < 1) ->
    simulate_mc_indices (cumsum_rows P) N T i0 rand = Ok out ->
    forall n t, (n < N)%nat -> (S t < T)%nat ->
      let i := out t n in let j := out (S t) n in let u := rand (n * (T - 1) + t)%nat in
      rsum j (mget P i) <= u < rsum j (mget P i) + mget P i j /\ 0 < mget P i j.
Proof.
  intros P k N T i0 rand out H1 H2 H3 H4 E n t Hn Ht i j u.
  destruct (simulate_indices_spec P k N T i0 rand H1 H2 H3 H4) as (out' & E' & F).
  rewrite E in E'. injection E' as <-. destruct (F n Hn) as (_ & B & C).
  specialize (C t ltac:(lia)). fold i j u in C. cbn [rsum] in C. split; [exact C|lra].
Qed.

Lemma simulate_values_raises : forall values P N T i0 rand,
    exists e, simulate_markov_chain values P N T i0 true rand = Err e.
Proof.
  intros. unfold simulate_markov_chain. destruct (simulate_mc_indices _ _ _ _ _); cbn [bind]; [|eauto].
  destruct (Nat.eqb _ _); eauto.
Qed.

(** A row that sums to less than one can produce an index outside the chain. *)
Lemma simulate_defective_row :
  exists P rand out, (forall i j, 0 <= mget P i j) /\ nrow P = 2%nat /\ ncol P = 2%nat /\
    (forall m, 0 <= rand m < 1) /\
    simulate_mc_indices (cumsum_rows P) 1 2 (fun _ => 0%nat) rand = Ok out /\ out 1%nat 0%nat = 2%nat.
Proof.
  exists (Mat 2 2 (fun _ _ => 4 / 10)), (fun _ => 9 / 10). eexists.
  split; [intros; simpl; lra|]. split; [reflexivity|]. split; [reflexivity|]. split; [intros; lra|].
  split; [reflexivity|]. unfold upd2. cbn [Nat.eqb andb]. unfold choice. cbn [choice_loop cumsum_rows nrow mget rsum].
  destruct (Rlt_dec _ _); [lra|]. destruct (Rlt_dec _ _); [lra|reflexivity].
Qed.

Lemma mc_simulate_spec : forall c k N T i0 rand,
    nrow (fst c) = k -> stochastic k (snd c) -> (1 <= T)%nat -> (i0 < k)%nat ->
    (forall m, 0 <= rand m < 1) ->
    (exists sim, mc_simulate c N T i0 true rand = Ok sim /\
       forall n t, (n < N)%nat -> (t < T)%nat ->
         sim 0%nat n = row (fst c) i0 /\ exists j, (j < k)%nat /\ sim t n = row (fst c) j) /\
    (exists sim, mc_simulate c N T i0 false rand = Ok sim /\
       forall n t, (n < N)%nat -> (t < T)%nat -> sim t n = row (fst c) i0).
Proof.
  intros c k N T i0 rand Hc Hs HT Hi Hr.
  assert (FA : forall inds, (forall n t, (n < N)%nat -> (t < T)%nat -> (inds t n < k)%nat) ->
     forallb (fun t => forallb (fun n => Nat.ltb (inds t n) (nrow (fst c))) (seq 0 N)) (seq 0 T) = true).
  { intros inds H. apply forallb_forall. intros t Ht. apply forallb_forall. intros n Hn.
    apply in_seq in Ht. apply in_seq in Hn. apply Nat.ltb_lt. rewrite Hc. apply H; lia. }
  split.
  - destruct (simulate_valid (snd c) k N T (fun _ => i0) rand Hs HT (fun _ _ => Hi) Hr) as (out & E & F).
    unfold mc_simulate, simulate_markov_chain. rewrite E. cbn [bind].
    rewrite FA by (intros n t Hn Ht; apply (F n Hn); exact Ht).
    eexists. split; [reflexivity|]. intros n t Hn Ht. destruct (F n Hn) as [F0 Fv]. split.
    + rewrite F0. reflexivity.
    + exists (out t n). split; [apply Fv, Ht|reflexivity].
  - unfold mc_simulate. cbn [bind]. rewrite FA by (intros; exact Hi). eexists. split; [reflexivity|]. reflexivity.
Qed.

(** ** Responses and simulations of VARs *)
Definition irf_loop (rho : mat) (d : nat) (x0 : nat -> R) (m : nat) : nat -> nat -> R :=
  for_range m (fun k irf t j => if Nat.eqb t (S k) then rsum d (fun l => mget rho j l * irf k l) else irf t j)
            (fun t j => if Nat.eqb t 0 then x0 j else 0).

Lemma irf_loop_ok : forall rho d x0 m, ncol rho = d ->
    exists irf, for_range_res m (fun k irf =>
              bind (py_matmul (PyMat rho) (irf k) d) (fun v =>
              Ok (fun t j => if Nat.eqb t (S k) then v j else irf t j)))
            (fun t j => if Nat.eqb t 0 then x0 j else 0) = Ok irf /\
      (forall j, irf 0%nat j = x0 j) /\
      (forall t j, (t < m)%nat -> irf (S t) j = rsum d (fun l => mget rho j l * irf t l)).
Proof.
  intros rho d x0 m Hd. induction m as [|m (irf & E & H0 & H1)].
  - eexists. split; [reflexivity|]. split; [reflexivity|]. intros; lia.
  - cbn [for_range_res]. rewrite E. cbn [bind]. unfold py_matmul at 1. rewrite Hd, Nat.eqb_refl. cbn [bind].
    eexists. split; [reflexivity|]. split.
    + intros j. cbn [Nat.eqb]. apply H0.
    + intros t j Ht. cbn [Nat.eqb].
      destruct (Nat.eqb_spec t m) as [->|Hne].
      * destruct (Nat.eqb_spec m (S m)); [lia|]. rewrite <- Hd. reflexivity.
      * destruct (Nat.eqb_spec t (S m)); [lia|]. apply H1. lia.
Qed.

Lemma var1_response_spec : forall p T impulse,
    (1 <= T)%nat -> ncol (v_rho p) = nrow (v_Sigma p) ->
    exists irf, var1_response p T impulse = Ok irf /\
      (forall j, irf 0%nat j = vget (v_mu p) j + vget impulse j) /\
      (forall t j, (S t < T)%nat ->
         irf (S t) j - vget (v_mu p) j
         = rsum (nrow (v_Sigma p)) (fun l => mget (v_rho p) j l * (irf t l - vget (v_mu p) l))).
Proof.
  intros p T impulse HT Hd. destruct T as [|T1]; [lia|].
  destruct (irf_loop_ok (v_rho p) (nrow (v_Sigma p)) (vget impulse) T1 Hd) as (irf & E & H0 & H1).
  unfold var1_response, ar_response. rewrite E. cbn [bind py_row].
  eexists. split; [reflexivity|]. split.
  - intros j. rewrite H0. ring.
  - intros t j Ht. rewrite H1 by lia. replace (_ + _ - _) with (rsum (nrow (v_Sigma p)) (fun l => mget (v_rho p) j l * irf t l)) by ring.
    apply rsum_ext. intros l Hl. ring.
Qed.

Lemma var1_response_scalar : forall r Sigma mu T impulse,
    (1 <= T)%nat ->
    exists irf, var1_response (make_var1 (RhoScalar r) Sigma (Some mu)) T impulse = Ok irf /\
      forall t j, (t < T)%nat -> (j < nrow Sigma)%nat -> irf t j = vget mu j + r ^ t * vget impulse j.
Proof.
  intros r Sigma mu T impulse HT.
  destruct (var1_response_spec (make_var1 (RhoScalar r) Sigma (Some mu)) T impulse HT eq_refl) as (irf & E & H0 & H1).
  exists irf. split; [exact E|]. induction t as [|t IH]; intros j Ht Hj.
  - rewrite H0. simpl. ring.
  - specialize (H1 t j Ht). cbn [make_var1 v_mu v_rho v_Sigma var1_rho mget] in H1.
    rewrite (rsum_single _ j _ Hj) in H1.
    + rewrite Nat.eqb_refl in H1. rewrite IH in H1 by lia.
      replace (irf (S t) j) with (irf (S t) j - vget mu j + vget mu j) by ring. rewrite H1. simpl. ring.
    + intros k _ Hk. destruct (Nat.eqb_spec j k); [congruence|ring].
Qed.

Lemma var1_response_vector : forall v Sigma mu T impulse,
    (1 <= T)%nat -> vlen v = nrow Sigma ->
    exists irf, var1_response (make_var1 (RhoVector v) Sigma (Some mu)) T impulse = Ok irf /\
      forall t j, (t < T)%nat -> (j < nrow Sigma)%nat -> irf t j = vget mu j + vget v j ^ t * vget impulse j.
Proof.
  intros v Sigma mu T impulse HT Hv.
  destruct (var1_response_spec (make_var1 (RhoVector v) Sigma (Some mu)) T impulse HT Hv) as (irf & E & H0 & H1).
  exists irf. split; [exact E|]. induction t as [|t IH]; intros j Ht Hj.
  - rewrite H0. simpl. ring.
  - specialize (H1 t j Ht). cbn [make_var1 v_mu v_rho v_Sigma var1_rho mget] in H1.
    rewrite (rsum_single _ j _ Hj) in H1.
    + rewrite Nat.eqb_refl in H1. rewrite IH in H1 by lia.
      replace (irf (S t) j) with (irf (S t) j - vget mu j + vget mu j) by ring. rewrite H1. simpl. ring.
    + intros k _ Hk. destruct (Nat.eqb_spec j k); [congruence|ring].
Qed.

Lemma ar1_response_raises : forall rho sigma mu T impulse,
    exists e, ar1_response rho sigma mu T impulse = Err e.
Proof.
  intros. unfold ar1_response, ar_response. destruct T as [|T1]; [eauto|].
  destruct (for_range_res _ _ _); cbn [bind py_row]; eauto.
Qed.

Lemma iid_response_spec : forall d T impulse, (1 <= T)%nat ->
    exists irf, iid_response d T impulse = Ok irf /\
      (forall j, irf 0%nat j = 0) /\ (forall j, irf 1%nat j = vget impulse j) /\
      (forall t j, (2 <= t)%nat -> irf t j = 0).
Proof.
  intros d T impulse HT. unfold iid_response. destruct (Nat.ltb_spec 1 (T + 1)); [|lia].
  eexists. split; [reflexivity|]. split; [reflexivity|]. split; [reflexivity|].
  intros t j Ht. destruct (Nat.eqb_spec t 1); [lia|reflexivity].
Qed.

Lemma var1_simulate_spec : forall p T m0 innov,
    (1 <= T)%nat ->
    exists sim, var1_simulate p T (Some m0) true innov = Ok sim /\
      (forall j, sim 0%nat j = vget m0 j + vget (v_mu p) j) /\
      (forall t j, (S t < T)%nat ->
         sim (S t) j - vget (v_mu p) j
         = rsum (nrow (v_Sigma p)) (fun l => mget (v_rho p) j l * (sim t l - vget (v_mu p) l)) + innov (S t) j).
Proof.
  intros p T m0 innov HT. destruct T as [|T1]; [lia|].
  unfold var1_simulate. cbn [negb].
  set (d := nrow (v_Sigma p)).
  assert (H : forall m, (m <= T1)%nat ->
    let s := for_range m (fun k sim t j =>
                   if Nat.eqb t (S k)
                   then rsum d (fun l => sim k l * mget (v_rho p) j l) + innov (S k) j
                   else sim t j)
                 (fun t j => if Nat.eqb t 0 then vget m0 j else 0) in
    (forall j, s 0%nat j = vget m0 j) /\
    (forall t j, (t < m)%nat -> s (S t) j = rsum d (fun l => s t l * mget (v_rho p) j l) + innov (S t) j)).
  { induction m as [|m IH]; intros Hm s.
    - split; [reflexivity|]. intros; lia.
    - destruct (IH ltac:(lia)) as [I0 I1].
      set (s' := for_range m _ _) in *. unfold s. cbn [for_range]. fold s'. split.
      + intros j. cbn [Nat.eqb]. apply I0.
      + intros t j Ht. cbn [Nat.eqb]. destruct (Nat.eqb_spec t m) as [->|Hne].
        * destruct (Nat.eqb_spec m (S m)); [lia|reflexivity].
        * destruct (Nat.eqb_spec t (S m)); [lia|]. apply I1. lia. }
  destruct (H T1 (le_n _)) as [S0 S1].
  eexists. split; [reflexivity|]. split.
  - intros j. rewrite S0. reflexivity.
  - intros t j Ht. rewrite S1 by lia.
    replace (_ + _ + _ - _) with (rsum d (fun l => for_range T1 (fun k sim t j =>
                   if Nat.eqb t (S k)
                   then rsum d (fun l => sim k l * mget (v_rho p) j l) + innov (S k) j
                   else sim t j)
                 (fun t j => if Nat.eqb t 0 then vget m0 j else 0) t l * mget (v_rho p) j l) + innov (S t) j) by ring.
    f_equal. apply rsum_ext. intros l Hl. ring.
Qed.

(** ** Discretisation of VARs *)
Lemma scalar_check_diag : forall d r, scalar_check (Mat d d (fun i j => if Nat.eqb i j then r else 0)) = true.
Proof.
  intros d r. unfold scalar_check. apply forallb_forall. intros i _. apply forallb_forall. intros j _.
  cbn [mget nrow ncol]. cbn [Nat.eqb]. destruct (Rle_dec _ _) as [|N]; [reflexivity|]. exfalso. apply N.
  destruct (Nat.eqb i j); [rewrite Rminus_diag_eq by reflexivity|rewrite Rminus_0_r]; rewrite Rabs_R0; lra.
Qed.

Lemma next_mean_shift : forall n P k (x : nat -> R) c, stochastic n P -> (k < n)%nat ->
    next_mean n P k (fun l => x l + c) = next_mean n P k x + c.
Proof.
  intros n P k x c (_ & _ & _ & Hs) Hk. unfold next_mean.
  rewrite (rsum_ext _ _ (fun j => mget P k j * x j + mget P k j * c)) by (intros; ring).
  rewrite rsum_plus, rsum_scal_r, Hs by exact Hk. ring.
Qed.

Lemma var1_discretize_moments : forall chol r Sigma mu N c L,
    (2 <= N)%nat ->
    let d := ncol Sigma in
    nrow Sigma = d ->
    (forall i j, (i < d)%nat -> (j < d)%nat -> i <> j -> mget Sigma i j = 0) ->
    (forall i, (i < d)%nat -> 0 <= mget Sigma i i) ->
    (1 <= d)%nat ->
    chol (patch_zero Sigma) = Ok L -> is_cholesky_upper d (patch_zero Sigma) L ->
    var1_discretize_mc chol (make_var1 (RhoScalar r) Sigma (Some mu)) N = Ok c ->
    stochastic (N ^ d) (snd c) /\
    forall k, (k < N ^ d)%nat ->
      (forall i, (i < d)%nat ->
         next_mean (N ^ d) (snd c) k (fun l => mget (fst c) l i)
         = vget mu i + r * (mget (fst c) k i - vget mu i)) /\
      (forall i j, (i < d)%nat -> (j < d)%nat ->
         let m i := vget mu i + r * (mget (fst c) k i - vget mu i) in
         next_mean (N ^ d) (snd c) k (fun l => (mget (fst c) l i - m i) * (mget (fst c) l j - m j)) = mget Sigma i j).
Proof.
  intros chol r Sigma mu N c L HN d Hsq Hdiag Hpos Hd HL HC E.
  unfold var1_discretize_mc, make_var1 in E. cbn [v_rho v_Sigma v_mu var1_rho] in E.
  rewrite scalar_check_diag in E. cbn [mget Nat.eqb] in E.
  destruct (multidimensional_discretization chol r Sigma N) as [[nodes P]|] eqn:EM; [|discriminate].
  cbn [bind fst snd] in E. injection E as <-. cbn [fst snd mget].
  destruct (multidim_diagonal chol r Sigma N nodes P L HN Hsq Hdiag Hpos HL HC EM) as [HS HM].
  fold d in HS, HM. split; [exact HS|]. intros k Hk. destruct (HM k Hk) as [M1 M2]. split.
  - intros i Hi. rewrite next_mean_shift by assumption. rewrite M1 by exact Hi. ring.
  - intros i j Hi Hj. rewrite <- (M2 i j Hi Hj). unfold next_mean. apply rsum_ext. intros l Hl. ring.
Qed.

Definition eye2 : mat := Mat 2 2 (fun i j => if Nat.eqb i j then 1 else 0).

Lemma eye2_patch : patch_zero eye2 = patch_zero eye2 /\
   forall i j, (i < 2)%nat -> (j < 2)%nat -> mget (patch_zero eye2) i j = mget eye2 i j.
Proof.
  split; [reflexivity|]. intros i j Hi Hj. unfold patch_zero. cbn [mget].
  assert (Z : zero_column eye2 i = false).
  { unfold zero_column, eye2; cbn [nrow rsum mget]. destruct i as [|[|i]]; try lia; cbn [Nat.eqb];
      destruct (Req_EM_T _ _); try reflexivity; lra. }
  rewrite Z, andb_false_r. reflexivity.
Qed.

Lemma var1_nonscalar : forall chol L N,
    (2 <= N)%nat -> chol (patch_zero eye2) = Ok L -> is_cholesky_upper 2 (patch_zero eye2) L ->
    exists c, var1_discretize_mc chol
        (make_var1 (RhoVector (Vec 2 (fun i => if Nat.eqb i 0 then 9 / 10 else 1 / 10))) eye2 None) N = Ok c /\
      (forall k, (k < N ^ 2)%nat ->
         next_mean (N ^ 2) (snd c) k (fun l => mget (fst c) l 1%nat) = 9 / 10 * mget (fst c) k 1%nat) /\
      ~ (forall k, (k < N ^ 2)%nat ->
         next_mean (N ^ 2) (snd c) k (fun l => mget (fst c) l 1%nat) = 1 / 10 * mget (fst c) k 1%nat).
Proof.
  intros chol L N HN HL HC.
  destruct (rouwenhorst_succeeds (9 / 10) 1 N HN ltac:(lra)) as (n1 & p1 & E1).
  set (rv := RhoVector (Vec 2 (fun i => if Nat.eqb i 0 then 9 / 10 else 1 / 10))).
  assert (SC : scalar_check (v_rho (make_var1 rv eye2 None)) = true).
  { unfold scalar_check. cbn. repeat (destruct (Rle_dec _ _) as [|n]; [|exfalso; apply n; apply Rabs_le; lra]). reflexivity. }
  assert (EM : exists nodes P, multidimensional_discretization chol (9 / 10) eye2 N = Ok (nodes, P)).
  { unfold multidimensional_discretization. rewrite HL. cbn [bind]. rewrite E1. cbn [bind]. eauto. }
  destruct EM as (nodes & P & EM).
  destruct (multidim_diagonal chol (9 / 10) eye2 N nodes P L HN eq_refl) as [HS HM]; try assumption.
  { intros i j _ _ Hij. cbn. destruct (Nat.eqb_spec i j); [contradiction|reflexivity]. }
  { intros i _. cbn. rewrite Nat.eqb_refl. lra. }
  change (ncol eye2) with 2%nat in *.
  unfold var1_discretize_mc. rewrite SC. change (mget (v_rho (make_var1 rv eye2 None)) 0%nat 0%nat) with (9 / 10).
  change (v_Sigma (make_var1 rv eye2 None)) with eye2. rewrite EM. cbn [bind fst snd].
  eexists. split; [reflexivity|]. cbn [fst snd mget make_var1 v_mu vget].
  assert (M : forall k, (k < N ^ 2)%nat ->
     next_mean (N ^ 2) P k (fun l => mget nodes l 1%nat + 0) = 9 / 10 * (mget nodes k 1%nat + 0)).
  { intros k Hk. rewrite next_mean_shift by assumption. destruct (HM k Hk) as [M1 _]. rewrite M1 by lia. ring. }
  split; [exact M|]. intros Hbad.
  assert (Z : forall k, (k < N ^ 2)%nat -> mget nodes k 1%nat = 0).
  { intros k Hk. specialize (Hbad k Hk). rewrite M in Hbad by exact Hk. lra. }
  assert (H0 : (0 < N ^ 2)%nat) by (simpl; nia).
  destruct (HM 0%nat H0) as [_ V]. specialize (V 1%nat 1%nat ltac:(lia) ltac:(lia)).
  unfold next_mean in V. rewrite rsum_0 in V.
  - cbn in V. lra.
  - intros l Hl. rewrite (Z l Hl), (Z 0%nat H0). ring.
Qed.

Lemma ar1_variance : forall chol r sigma mu N c L,
    (2 <= N)%nat -> 0 < sigma ->
    chol (patch_zero (Mat 1 1 (fun _ _ => sigma))) = Ok L ->
    is_cholesky_upper 1 (patch_zero (Mat 1 1 (fun _ _ => sigma))) L ->
    ar1_discretize_mc chol r sigma mu N = Ok c ->
    forall k, (k < N)%nat ->
      next_mean N (snd c) k (fun l => mget (fst c) l 0%nat) = mu + r * (mget (fst c) k 0%nat - mu) /\
      next_mean N (snd c) k (fun l => (mget (fst c) l 0%nat - (mu + r * (mget (fst c) k 0%nat - mu))) ^ 2) = sigma.
Proof.
  intros chol r sigma mu N c L HN Hs HL HC E k Hk.
  unfold ar1_discretize_mc, var1_discretize_mc in E. cbn [v_rho v_Sigma v_mu] in E.
  destruct (scalar_check _); [|discriminate]. cbn [mget] in E.
  destruct (multidimensional_discretization chol r (Mat 1 1 (fun _ _ => sigma)) N) as [[nodes P]|] eqn:EM; [|discriminate].
  cbn [bind fst snd] in E. injection E as <-. cbn [fst snd mget vget].
  destruct (multidim_diagonal chol r (Mat 1 1 (fun _ _ => sigma)) N nodes P L HN eq_refl) as [HS HM]; try assumption.
  { intros i j Hi Hj Hij. cbn in *. lia. }
  { intros i _. cbn. lra. }
  change (ncol (Mat 1 1 (fun _ _ => sigma))) with 1%nat in *. rewrite Nat.pow_1_r in *.
  destruct (HM k Hk) as [M1 M2]. split.
  - rewrite next_mean_shift by assumption. rewrite M1 by lia. ring.
  - specialize (M2 0%nat 0%nat ltac:(lia) ltac:(lia)). transitivity (mget (Mat 1 1 (fun _ _ => sigma)) 0 0); [|reflexivity].
    rewrite <- M2. unfold next_mean. apply rsum_ext. intros l Hl. ring.
Qed.

(** ** Products *)
Section Products.
  Context {K : Type}.

  Lemma discretize_all_ok : forall to (l : list (process K)) kw ds,
      Forall2 (fun pk d => p_discretize (fst pk) to (snd pk) = Ok d) (combine l kw) ds ->
      length kw = length l -> discretize_all to l kw = Ok ds.
  Proof.
    intros to l. induction l as [|p l IH]; intros [|k kw] ds H Hl; simpl in *; try lia.
    - inversion H; reflexivity.
    - inversion H as [|? d ? ds' Hd Hds]; subst. cbn [fst snd] in Hd. rewrite Hd. cbn [bind].
      rewrite (IH kw ds' Hds) by lia. reflexivity.
  Qed.

  Lemma as_chains_map : forall cs, as_chains (map DChain cs) = Ok cs.
  Proof. induction cs as [|c cs IH]; simpl; [reflexivity|]. rewrite IH. reflexivity. Qed.
  Lemma as_iids_map : forall cs, as_iids (map DIid cs) = Ok cs.
  Proof. induction cs as [|c cs IH]; simpl; [reflexivity|]. rewrite IH. reflexivity. Qed.

  Definition kwargs_of (l : list (process K)) (o : options) : list K :=
    match o with OptDict k => repeat k (length l) | OptList ks => ks end.

  Lemma product_eq : forall (l : list (process K)) to o, length (kwargs_of l o) = length l ->
      product_discretize l to o =
      let t := match to with Some t => t | None => choose_target l end in
      bind (discretize_all t l (kwargs_of l o)) (fun ds =>
      match t with
      | ToIid => bind (as_iids ds) (fun ds' => bind (product_iid ds') (fun d => Ok (DIid d)))
      | ToMc => bind (as_chains ds) (fun cs => bind (tensor_markov cs) (fun c => Ok (DChain c)))
      | ToGdp => Err (ExcGeneric "Not implemented")
      end).
  Proof.
    intros l to [k|ks] H; simpl in *; [reflexivity|]. rewrite H, Nat.eqb_refl. reflexivity.
  Qed.

  Lemma product_markov : forall (l : list (process K)) o cs to,
      (to = Some ToMc \/ to = None /\ exists p, In p l /\ (is_markov_chain p = true \/ is_continuous p = true)) ->
      length (kwargs_of l o) = length l ->
      Forall2 (fun pk c => p_discretize (fst pk) ToMc (snd pk) = Ok (DChain c)) (combine l (kwargs_of l o)) cs ->
      (2 <= length l)%nat -> Forall wf_chain cs ->
      exists n t, product_discretize l to o = Ok (DChain (n, t)) /\
        nrow t = size_prod (sizes cs) /\
        (forall k m, (k < size_prod (sizes cs))%nat -> (m < size_prod (sizes cs))%nat ->
            mget t k m = joint_prob (map snd cs) (components (sizes cs) k) (components (sizes cs) m)) /\
        (forall k, (k < size_prod (sizes cs))%nat ->
            row n k = joint_values (map fst cs) (components (sizes cs) k)).
  Proof.
    intros l o cs to Hto Hk HF Hl Hw.
    assert (Ht : match to with Some t => t | None => choose_target l end = ToMc).
    { destruct Hto as [->|[-> (p & Hp & Hmc)]]; [reflexivity|]. unfold choose_target.
      assert (E : existsb (fun p => is_markov_chain p || is_continuous p)%bool l = true).
      { apply existsb_exists. exists p. split; [exact Hp|]. destruct Hmc as [-> | ->]; [reflexivity|apply orb_true_r]. }
      rewrite E. reflexivity. }
    rewrite product_eq by exact Hk. cbv zeta. rewrite Ht.
    rewrite (discretize_all_ok ToMc l (kwargs_of l o) (map DChain cs)); [|clear -HF|exact Hk].
    - cbn [bind]. rewrite as_chains_map. cbn [bind].
      assert (Hcs : length cs = length l).
      { apply Forall2_len in HF. rewrite combine_length, Hk, Nat.min_id in HF. congruence. }
      rewrite <- Hcs in Hl. destruct (tensor_markov_joint_lemma cs Hl Hw) as (n & t & E & N1 & N2 & N3 & Q & R).
      rewrite E. cbn [bind]. exists n, t. repeat split; assumption.
    - revert HF. generalize (combine l (kwargs_of l o)). intros pk HF. induction HF; simpl; constructor; assumption.
  Qed.

  Lemma product_iid_kind : forall (l : list (process K)) o ds to,
      (to = Some ToIid \/
       to = None /\ forall p, In p l -> is_iid p = true /\ is_markov_chain p = false /\ is_continuous p = false) ->
      length (kwargs_of l o) = length l ->
      Forall2 (fun pk d => p_discretize (fst pk) ToIid (snd pk) = Ok (DIid d)) (combine l (kwargs_of l o)) ds ->
      l <> [] -> Forall good_iid ds -> Forall (fun d => 0 < iid_n d)%nat ds ->
      exists d, product_discretize l to o = Ok (DIid d) /\ product_iid ds = Ok d /\
        (forall d1, ds = [d1] -> iid_n d = iid_n d1 /\
           forall i, (i < iid_n d1)%nat -> iid_point d i = iid_point d1 i /\ iid_weight d i = iid_weight d1 i).
  Proof.
    intros l o ds to Hto Hk HF Hl Hg Hp.
    assert (Ht : match to with Some t => t | None => choose_target l end = ToIid).
    { destruct Hto as [->|[-> H]]; [reflexivity|]. unfold choose_target.
      assert (E : existsb (fun p => is_markov_chain p || is_continuous p)%bool l = false).
      { destruct (existsb _ l) eqn:E; [|reflexivity]. apply existsb_exists in E. destruct E as (p & Hin & E).
        destruct (H p Hin) as (_ & A & B). rewrite A, B in E. discriminate. }
      assert (E2 : forallb is_iid l = true) by (apply forallb_forall; intros p Hin; apply (H p Hin)).
      rewrite E, E2. reflexivity. }
    assert (Hds : length ds = length l).
    { apply Forall2_len in HF. rewrite combine_length, Hk, Nat.min_id in HF. congruence. }
    rewrite product_eq by exact Hk. cbv zeta. rewrite Ht.
    rewrite (discretize_all_ok ToIid l (kwargs_of l o) (map DIid ds)); [|clear -HF|exact Hk].
    - cbn [bind]. rewrite as_iids_map. cbn [bind].
      assert (Hne : ds <> []) by (intros ->; destruct l; [contradiction|simpl in Hds; discriminate]).
      destruct (product_iid_spec ds Hne Hg Hp) as (d & E & _). rewrite E. cbn [bind].
      exists d. split; [reflexivity|]. split; [reflexivity|]. intros d1 ->.
      inversion Hg; inversion Hp; subst. apply product_one; assumption.
    - revert HF. generalize (combine l (kwargs_of l o)). intros pk HF. induction HF; simpl; constructor; assumption.
  Qed.

  Lemma product_otherwise : forall (l : list (process K)) o,
      (forall p, In p l -> is_markov_chain p = false /\ is_continuous p = false) ->
      (exists p, In p l /\ is_iid p = false) ->
      exists e, product_discretize l None o = Err e.
  Proof.
    intros l o H1 (p & Hp & Hn).
    assert (Ht : choose_target l = ToGdp).
    { unfold choose_target.
      assert (E : existsb (fun p => is_markov_chain p || is_continuous p)%bool l = false).
      { destruct (existsb _ l) eqn:E; [|reflexivity]. apply existsb_exists in E. destruct E as (q & Hin & E).
        destruct (H1 q Hin) as (A & B). rewrite A, B in E. discriminate. }
      rewrite E. destruct (forallb is_iid l) eqn:E2; [|reflexivity].
      rewrite forallb_forall in E2. rewrite (E2 p Hp) in Hn. discriminate. }
    unfold product_discretize. rewrite Ht. destruct o as [k|ks].
    - destruct (discretize_all _ _ _); cbn [bind]; eauto.
    - destruct (Nat.eqb _ _); [|eauto]. destruct (discretize_all _ _ _); cbn [bind]; eauto.
  Qed.

  Lemma product_single_markov : forall (p : process K) o to,
      to = Some ToMc \/ to = None /\ (is_markov_chain p = true \/ is_continuous p = true) ->
      exists e, product_discretize [p] to o = Err e.
  Proof.
    intros p o to Hto.
    assert (Ht : match to with Some t => t | None => choose_target [p] end = ToMc).
    { destruct Hto as [->|[-> H]]; [reflexivity|]. unfold choose_target. simpl.
      destruct H as [-> | ->]; [reflexivity|]. rewrite orb_true_r. reflexivity. }
    assert (G : forall kw, exists e, bind (discretize_all ToMc [p] kw) (fun ds =>
        bind (as_chains ds) (fun cs => bind (tensor_markov cs) (fun c => Ok (DChain c)))) = Err e).
    { intros [|k kw]; simpl; [eauto|]. destruct (p_discretize p ToMc k) as [d|]; cbn [bind]; [|eauto].
      destruct d; cbn [as_chains bind tensor_markov]; eauto. }
    unfold product_discretize. rewrite Ht. destruct o as [k|ks]; [apply G|].
    destruct (Nat.eqb _ _); [apply G|eauto].
  Qed.
End Products.

Lemma ar1_example :
  exists L c, is_cholesky_upper 1 (patch_zero (Mat 1 1 (fun _ _ => 4))) L /\
    ar1_discretize_mc (fun _ => Ok L) (1 / 2) 4 1 3 = Ok c.
Proof.
  exists (Mat 1 1 (fun _ _ => 2)).
  destruct (rouwenhorst_succeeds (1 / 2) 1 3) as (n1 & p1 & E1); [lia|lra|].
  eexists. split.
  - split; [reflexivity|]. split; [reflexivity|]. split; [intros; lia|]. split; [intros; cbn; lra|].
    intros i j Hi Hj. assert (i = 0%nat) as -> by lia. assert (j = 0%nat) as -> by lia.
    unfold patch_zero, zero_column. cbn [mget nrow rsum Nat.eqb andb]. destruct (Req_EM_T _ _); lra.
  - unfold ar1_discretize_mc, var1_discretize_mc. cbn [v_rho v_Sigma v_mu mget].
    assert (SC : scalar_check (Mat 1 1 (fun _ _ => 1 / 2)) = true).
    { unfold scalar_check. cbn. destruct (Rle_dec _ _) as [|n]; [reflexivity|]. exfalso. apply n.
      rewrite Rminus_diag_eq by reflexivity. rewrite Rabs_R0. lra. }
    rewrite SC. unfold multidimensional_discretization. cbn [bind]. rewrite E1. cbn [bind]. reflexivity.
Qed.

Lemma var1_simulate_start :
  exists p m0 sim, var1_simulate p 2 (Some m0) true (fun _ _ => 0) = Ok sim /\
    vlen m0 = 1%nat /\ nrow (v_Sigma p) = 1%nat /\ sim 0%nat 0%nat <> vget m0 0.
Proof.
  destruct (var1_simulate_spec (make_var1 (RhoScalar (1 / 2)) (Mat 1 1 (fun _ _ => 1)) (Some (Vec 1 (fun _ => 1)))) 2
              (Vec 1 (fun _ => 0)) (fun _ _ => 0) ltac:(lia)) as (sim & E & H & _).
  do 3 eexists. split; [exact E|]. split; [reflexivity|]. split; [reflexivity|]. rewrite H. cbn. lra.
Qed.

Lemma simulate_never_returns : forall p rho sigma mu T m0 s innov,
    (exists e, var1_simulate p T m0 false innov = Err e) /\
    (exists e, ar1_simulate rho sigma mu T m0 s innov = Err e).
Proof.
  intros. split; [eexists; reflexivity|]. unfold ar1_simulate. destruct s; simpl; [destruct T|]; eauto.
Qed.
