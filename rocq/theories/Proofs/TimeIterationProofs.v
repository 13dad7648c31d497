(** Proofs on time iteration. *)
From Coq Require Import String Reals List Arith Lia Lra Bool.
From Verif.Base Require Import Prelude Arrays Sums Norms Ext.
From Verif.Spec Require Import Complementarity Euler Newton.
From Verif.Model Require Import Discretization Grids Distributions Processes DecisionRule Complementarity Newton NumDiff TimeIteration.
From Verif.Spec Require Import TimeIteration Product Interpolation.
From Verif.Proofs Require Import DivMod NewtonProofs DecisionRuleProofs.
Import ListNotations.
Open Scope R_scope.

Lemma for_range_res_ok :
  forall {A} (P : nat -> A -> Prop) (n : nat) (body : nat -> A -> res A) (s : A),
    P 0%nat s ->
    (forall k x, (k < n)%nat -> P k x -> exists y, body k x = Ok y /\ P (S k) y) ->
    exists r, for_range_res n body s = Ok r /\ P n r.
Proof.
  intros A P n body s H0 HS. induction n as [|n IH].
  - exists s. split; [reflexivity|assumption].
  - destruct IH as (r & E & HP); [intros; apply HS; [lia|assumption]|].
    destruct (HS n r) as (y & Ey & Hy); [lia|assumption|]. exists y. cbn [for_range_res]. rewrite E. cbn [bind].
    split; assumption.
Qed.

Lemma for_range_res_ext :
  forall {A} (n : nat) (b1 b2 : nat -> A -> res A) (s : A),
    (forall k x, (k < n)%nat -> b1 k x = b2 k x) -> for_range_res n b1 s = for_range_res n b2 s.
Proof.
  intros A n b1 b2 s H. induction n as [|n IH]; [reflexivity|]. cbn [for_range_res].
  rewrite IH by (intros; apply H; lia). destruct (for_range_res n b2 s); [apply H; lia|reflexivity].
Qed.

Lemma nth_map_seq : forall {A} (h : nat -> A) N n d, (n < N)%nat -> nth n (map h (seq 0 N)) d = h n.
Proof.
  intros A h N n d Hn. rewrite (nth_indep _ d (h 0%nat)) by (rewrite map_length, seq_length; assumption).
  rewrite map_nth, seq_nth by assumption. reflexivity.
Qed.

Lemma nth_map_lt : forall {A B} (h : A -> B) l n d d', (n < length l)%nat -> nth n (map h l) d = h (nth n l d').
Proof.
  intros A B h l n d d' Hn. rewrite (nth_indep _ d (h d')) by (rewrite map_length; assumption). apply map_nth.
Qed.

Section Res.
  Variable g : list R -> list R -> list R -> list R -> list R.
  Variable f : list R -> list R -> list R -> list R -> list R -> list R -> nat -> R.
  Variable exo : dexo.
  Variable s : list (list R).
  Variable n_x : nat.
  Notation dp := (ex_dp exo).
  Notation N := (length s).

  Lemma next_states_nth : forall x i j n, (n < N)%nat ->
      nth n (next_states g exo s n_x x i j) [] = g (ex_node exo i) (nth n s []) (at_node n_x x i n) (dp_node dp i j).
  Proof. intros. unfold next_states. rewrite nth_map_seq by assumption. reflexivity. Qed.

  Lemma next_states_length : forall x i j, length (next_states g exo s n_x x i j) = N.
  Proof. intros. unfold next_states. rewrite map_length, seq_length. reflexivity. Qed.

  (** The partial sums. *)
  Definition eul (phi : nat -> nat -> list R -> list R) (x : tensor) (c i n k : nat) : R :=
    euler g f c (dp_weight dp i) (dp_node dp i) (phi i) (ex_node exo i) (nth n s []) (at_node n_x x i n) k.

  Lemma eul_S : forall phi x c i n k, (n < N)%nat ->
      eul phi x (S c) i n k = eul phi x c i n k + dp_weight dp i c *
        f (ex_node exo i) (nth n s []) (at_node n_x x i n) (dp_node dp i c)
          (nth n (next_states g exo s n_x x i c) []) (phi i c (nth n (next_states g exo s n_x x i c) [])) k.
  Proof. intros. unfold eul, euler. cbn [rsum]. cbv zeta. rewrite !next_states_nth by assumption. reflexivity. Qed.

  Lemma residuals_simple_ok : forall dr phi x,
      (forall i j, (i < ex_n exo)%nat -> (j < dp_n dp i)%nat ->
         dr i j (next_states g exo s n_x x i j) = Ok (map (phi i j) (next_states g exo s n_x x i j))) ->
      exists r, residuals_simple g f exo s n_x dr x = Ok r /\
        forall i n k, (i < ex_n exo)%nat -> (n < N)%nat -> r i n k = eul phi x (dp_n dp i) i n k.
  Proof.
    intros dr phi x Hdr. unfold residuals_simple.
    destruct (for_range_res_ok (fun c (acc : tensor) => forall i n k, (n < N)%nat ->
                 acc i n k = if Nat.ltb i c then eul phi x (dp_n dp i) i n k else 0)
               (ex_n exo) (fun i acc =>
      for_range_res (dp_n dp i) (fun j acc =>
        bind (dr i j (next_states g exo s n_x x i j)) (fun XM => accumulate g f exo s n_x x i j XM acc)) acc)
               (fun _ _ _ => 0)) as (r & E & Hr).
    - intros. reflexivity.
    - intros i acc Hi Hacc.
      destruct (for_range_res_ok (fun c (a : tensor) => forall i' n k, (n < N)%nat ->
                 a i' n k = if Nat.eqb i' i then eul phi x c i n k else acc i' n k)
               (dp_n dp i) (fun j acc =>
        bind (dr i j (next_states g exo s n_x x i j)) (fun XM => accumulate g f exo s n_x x i j XM acc)) acc)
        as (y & Ey & Hy).
      + intros i' n k Hn. destruct (Nat.eqb_spec i' i) as [->|Hne]; [|reflexivity].
        rewrite Hacc by assumption. rewrite (proj2 (Nat.ltb_ge i i)) by lia. reflexivity.
      + intros j a Hj Ha. rewrite Hdr by assumption. cbn [bind]. unfold accumulate.
        rewrite map_length, next_states_length, Nat.eqb_refl. eexists. split; [reflexivity|].
        intros i' n k Hn. cbv beta. rewrite Ha by assumption. destruct (Nat.eqb_spec i' i) as [->|Hne]; [|reflexivity].
        rewrite eul_S by assumption. do 2 f_equal.
        rewrite (nth_map_lt (phi i j) _ n [] []) by (rewrite next_states_length; assumption). reflexivity.
      + exists y. split; [exact Ey|]. intros i' n k Hn. rewrite Hy by assumption.
        destruct (Nat.eqb_spec i' i) as [->|Hne].
        * rewrite (proj2 (Nat.ltb_lt i (S i))) by lia. reflexivity.
        * rewrite Hacc by assumption. destruct (Nat.ltb_spec i' i); destruct (Nat.ltb_spec i' (S i)); try lia; reflexivity.
    - exists r. split; [exact E|]. intros i n k Hi Hn. rewrite Hr by assumption.
      rewrite (proj2 (Nat.ltb_lt i _)) by assumption. reflexivity.
  Qed.

  Lemma residuals_total_value : forall phi x i n k, (i < ex_n exo)%nat -> (n < N)%nat ->
      residuals_total g f exo s n_x phi x i n k = eul phi x (dp_n dp i) i n k.
  Proof.
    intros phi x i n k Hi Hn. unfold residuals_total.
    match goal with |- for_range _ ?B _ _ _ _ = _ => set (body := B) end.
    pose proof (for_range_inv (fun c (acc : tensor) => forall i n k, (n < N)%nat ->
                 acc i n k = if Nat.ltb i c then eul phi x (dp_n dp i) i n k else 0)
               (ex_n exo) body (fun _ _ _ => 0)) as H.
    cbv beta in H. rewrite H; [rewrite (proj2 (Nat.ltb_lt i _)) by assumption; reflexivity| | |assumption].
    - intros. reflexivity.
    - intros c acc Hc Hacc i' n' k' Hn'. unfold body.
      match goal with |- for_range _ ?B _ _ _ _ = _ => set (body2 := B) end.
      pose proof (for_range_inv (fun j (a : tensor) => forall i' n k, (n < N)%nat ->
                 a i' n k = if Nat.eqb i' c then eul phi x j c n k else acc i' n k)
               (dp_n dp c) body2 acc) as H2.
      cbv beta in H2. rewrite H2; [| | |assumption].
      + destruct (Nat.eqb_spec i' c) as [->|Hne].
        * rewrite (proj2 (Nat.ltb_lt c (S c))) by lia. reflexivity.
        * rewrite Hacc by assumption. destruct (Nat.ltb_spec i' c); destruct (Nat.ltb_spec i' (S c)); try lia; reflexivity.
      + intros i2 n2 k2 Hn2. destruct (Nat.eqb_spec i2 c) as [->|Hne]; [|reflexivity].
        rewrite Hacc by assumption. rewrite (proj2 (Nat.ltb_ge c c)) by lia. reflexivity.
      + intros j a Hj Ha i2 n2 k2 Hn2. unfold body2. rewrite Ha by assumption.
        destruct (Nat.eqb_spec i2 c) as [->|Hne]; [|reflexivity]. rewrite eul_S by assumption. reflexivity.
  Qed.
End Res.

(** ** Expectations with actual rules. *)
Lemma euler_ext : forall g f n w M X Y m s x k,
    (forall j p, (j < n)%nat -> X j p = Y j p) -> euler g f n w M X m s x k = euler g f n w M Y m s x k.
Proof. intros. unfold euler. apply rsum_ext. intros j Hj. cbv zeta. rewrite H by assumption. reflexivity. Qed.

Lemma residuals_markov : forall el ec g f c s n_x endo k co v x nodes,
    (forall j pts, (j < ncol (snd c))%nat -> eval_is el ec (GUnstructured nodes) endo k co (IInt j) pts = Ok (map (v j) pts)) ->
    exists r, residuals_simple g f (mc_exo c) s n_x
                (eval_ijs el ec (dp_node (ex_dp (mc_exo c))) (GUnstructured nodes) endo k co) x = Ok r /\
      forall i n q, (i < nrow (fst c))%nat -> (n < length s)%nat ->
        r i n q = euler g f (ncol (snd c)) (mget (snd c) i) (row (fst c)) v
                        (row (fst c) i) (nth n s []) (at_node n_x x i n) q.
Proof.
  intros el ec g f c s n_x endo k co v x nodes Hv.
  destruct (residuals_simple_ok g f (mc_exo c) s n_x
    (eval_ijs el ec (dp_node (ex_dp (mc_exo c))) (GUnstructured nodes) endo k co) (fun _ j => v j) x) as (r & E & Hr).
  - intros i j Hi Hj. cbn [eval_ijs]. apply Hv. exact Hj.
  - exists r. split; [exact E|]. intros i n q Hi Hn. rewrite Hr by assumption. reflexivity.
Qed.

Lemma residuals_iid : forall el ec g f d dim s n_x endo k co v x,
    (forall pts, eval_s el ec GEmpty endo k co pts = Ok (map v pts)) ->
    exists r, residuals_simple g f (iid_exo d dim) s n_x
                (eval_ijs el ec (dp_node (ex_dp (iid_exo d dim))) GEmpty endo k co) x = Ok r /\
      forall n q, (n < length s)%nat ->
        r 0%nat n q = euler g f (iid_n d) (iid_weight d) (iid_point d) (fun _ => v)
                        (repeat 0 dim) (nth n s []) (at_node n_x x 0 n) q.
Proof.
  intros el ec g f d dim s n_x endo k co v x Hv.
  destruct (residuals_simple_ok g f (iid_exo d dim) s n_x
    (eval_ijs el ec (dp_node (ex_dp (iid_exo d dim))) GEmpty endo k co) (fun _ _ => v) x) as (r & E & Hr).
  - intros i j Hi Hj. cbn [eval_ijs]. apply Hv.
  - exists r. split; [exact E|]. intros n q Hn. rewrite Hr by (try assumption; cbn; lia). reflexivity.
Qed.

Lemma residuals_gdp : forall el ec g f p s n_x ex endo k co v x,
    (exists u, ex = GUniform u) \/ (exists u, ex = GNonUniform u) ->
    (forall m pts, eval_ms el ec ex endo k co (repeat m (length pts)) pts = Ok (map (v m) pts)) ->
    exists r, residuals_simple g f (gdp_exo p) s n_x
                (eval_ijs el ec (dp_node (ex_dp (gdp_exo p))) ex endo k co) x = Ok r /\
      forall i n q, (i < nrow (gdp_nodes p))%nat -> (n < length s)%nat ->
        r i n q = euler g f (gdp_k p) (gdp_iweights p i) (gdp_inodes p i) (fun j => v (gdp_inodes p i j))
                        (row (gdp_nodes p) i) (nth n s []) (at_node n_x x i n) q.
Proof.
  intros el ec g f p s n_x ex endo k co v x Hex Hv.
  destruct (residuals_simple_ok g f (gdp_exo p) s n_x
    (eval_ijs el ec (dp_node (ex_dp (gdp_exo p))) ex endo k co) (fun i j => v (gdp_inodes p i j)) x) as (r & E & Hr).
  - intros i j Hi Hj. destruct Hex as [(u & ->)|(u & ->)]; cbn [eval_ijs]; apply Hv.
  - exists r. split; [exact E|]. intros i n q Hi Hn. rewrite Hr by assumption. reflexivity.
Qed.

(** ** The loop. *)
Section Flat.
  Variable N n_x : nat.
  Lemma flatten_unflatten : forall v q, (0 < N)%nat -> (0 < n_x)%nat -> flatten N n_x (unflatten N n_x v) q = v q.
  Proof.
    intros v q HN Hx. unfold flatten, unflatten. f_equal.
    rewrite (Nat.mul_comm (q / n_x / N) N), <- (Nat.div_mod (q / n_x) N) by lia.
    rewrite (Nat.mul_comm (q / n_x) n_x), <- (Nat.div_mod q n_x) by lia. reflexivity.
  Qed.

  Lemma unflatten_flatten : forall x i n k, (n < N)%nat -> (k < n_x)%nat -> unflatten N n_x (flatten N n_x x) i n k = x i n k.
  Proof.
    intros x i n k Hn Hk. unfold flatten, unflatten.
    assert (E : (((i * N + n) * n_x + k) / n_x = i * N + n)%nat).
    { rewrite Nat.div_add_l by lia. rewrite Nat.div_small by lia. lia. }
    assert (E2 : (((i * N + n) * n_x + k) mod n_x = k)%nat).
    { rewrite Nat.add_comm, Nat.mod_add by lia. apply Nat.mod_small. lia. }
    rewrite E, E2. rewrite Nat.div_add_l by lia. rewrite (Nat.div_small n N) by lia.
    rewrite (Nat.add_comm (i * N)), Nat.mod_add, Nat.mod_small by lia. rewrite Nat.add_0_r. reflexivity.
  Qed.

  Lemma flat_bound : forall M i n k, (i < M)%nat -> (n < N)%nat -> (k < n_x)%nat -> ((i * N + n) * n_x + k < M * N * n_x)%nat.
  Proof.
    intros M i n k Hi Hn Hk.
    assert (i * N + n + 1 <= M * N)%nat by nia.
    assert ((i * N + n + 1) * n_x <= M * N * n_x)%nat by (apply Nat.mul_le_mono_r; assumption). nia.
  Qed.

  Lemma flat_split : forall M q, (q < M * N * n_x)%nat ->
      (q / n_x / N < M /\ (q / n_x) mod N < N /\ q mod n_x < n_x)%nat.
  Proof.
    intros M q Hq. assert (n_x <> 0 /\ N <> 0)%nat as [? ?] by (split; intros ->; lia).
    split; [|split; apply Nat.mod_upper_bound; assumption].
    apply Nat.div_lt_upper_bound; [assumption|]. apply Nat.div_lt_upper_bound; [assumption|]. nia.
  Qed.

  Lemma flatten_at : forall x i n k, (n < N)%nat -> (k < n_x)%nat -> flatten N n_x x ((i * N + n) * n_x + k) = x i n k.
  Proof. intros. apply (unflatten_flatten x i n k); assumption. Qed.

  Lemma distance_supnorm : forall M (c p : nat -> R), (0 < M * N * n_x)%nat ->
      distance_is M N n_x (unflatten N n_x c) (unflatten N n_x p) (supnorm (M * N * n_x) (fun q => c q - p q)).
  Proof.
    intros M c p H. split.
    - intros i n k Hi Hn Hk. unfold unflatten.
      apply (supnorm_ge (M * N * n_x) (fun q => c q - p q)). apply flat_bound; assumption.
    - destruct (supnorm_attained (M * N * n_x) (fun q => c q - p q) H) as (q & Hq & E).
      destruct (flat_split M q Hq) as (A & B & C). exists (q / n_x / N)%nat, ((q / n_x) mod N)%nat, (q mod n_x)%nat.
      repeat (split; [assumption|]). rewrite E. unfold unflatten.
      assert (F : forall v : nat -> R, v ((q / n_x / N * N + (q / n_x) mod N) * n_x + q mod n_x)%nat = v q).
      { intros v. apply (flatten_unflatten v q); lia. }
      rewrite !F. reflexivity.
  Qed.
End Flat.

Section Loop.
  Variable g : list R -> list R -> list R -> list R -> list R.
  Variable f : list R -> list R -> list R -> list R -> list R -> list R -> nat -> R.
  Variable exo : dexo.
  Variable s : list (list R).
  Variable n_x : nat.
  Variable interpolate : tensor -> nat -> nat -> list R -> list R.
  Variable lsolve : (nat -> nat -> R) -> (nat -> R) -> res (nat -> R).
  Variable nan : R.
  Notation N := (length s).
  Notation sz := (size exo s n_x).
  Notation inner := (ti_inner g f exo s n_x interpolate lsolve nan).

  Notation flat_ext := (flat_ext s n_x).
  Notation flat_bounds := (flat_bounds s n_x).
  Notation ti_update := (ti_update g f exo s n_x interpolate lsolve nan).
  Notation big_update := (big_update g f exo s n_x interpolate lsolve nan).

  Lemma flatten_unflatten_eq : forall v, (0 < N)%nat -> (0 < n_x)%nat -> flatten N n_x (unflatten N n_x v) = v.
  Proof. intros. apply FunctionalExtensionality.functional_extensionality. intros q. apply flatten_unflatten; assumption. Qed.

  Lemma size_pos : sz <> 0%nat -> (0 < N /\ 0 < n_x /\ 0 < sz)%nat.
  Proof. unfold size. intros. repeat split; destruct N, n_x; lia. Qed.

  Definition flat_step im fb tol (a b : nat -> R) : Prop :=
    (exists nit cv, inner im fb a = Ok (b, nit, cv)) /\ tol < supnorm sz (fun q => b q - a q).

  Lemma ti_loop_run : forall tol im fb fuel it err c0 ctl ctl' it' err',
      ti_loop g f exo s n_x interpolate lsolve nan tol im fb fuel it err c0 ctl = Ok (ctl', it', err') ->
      (it' = it /\ ctl' = ctl /\ err' = err /\ (fuel = 0%nat \/ err <= tol)) \/
      (sz <> 0%nat /\ tol < err /\ (it < it' <= it + fuel)%nat /\
       exists p c nit cv, ctl' = Some c /\ updates (flat_step im fb tol) (it' - it - 1) c0 p /\
         inner im fb p = Ok (c, nit, cv) /\ err' = supnorm sz (fun q => c q - p q) /\
         ((it' < it + fuel)%nat -> err' <= tol)).
  Proof.
    intros tol im fb fuel. induction fuel as [|fuel IH]; intros it err c0 ctl ctl' it' err' H.
    - cbn [ti_loop] in H. injection H as <- <- <-. left. repeat split. left. reflexivity.
    - cbn [ti_loop] in H. destruct (Rlt_dec tol err) as [Hlt|Hge].
      2:{ injection H as <- <- <-. left. repeat split. right. lra. }
      destruct (Nat.eqb_spec sz 0) as [|Hsz]; [discriminate|].
      destruct (inner im fb c0) as [[[c nit] cv]|e] eqn:Ein; [|discriminate]. cbn [bind fst] in H.
      right. split; [assumption|]. split; [assumption|].
      apply IH in H. destruct H as [(-> & -> & -> & Hend)|(_ & Hlt2 & Hit & p & c' & nit' & cv' & -> & Hu & Ein' & -> & Hle)].
      + split; [lia|]. exists c0, c, nit, cv. split; [reflexivity|].
        replace (S it - it - 1)%nat with 0%nat by lia. split; [constructor|]. split; [assumption|].
        split; [reflexivity|]. intros. destruct Hend; [lia|assumption].
      + split; [lia|]. exists p, c', nit', cv'. split; [reflexivity|]. split.
        * replace (it' - it - 1)%nat with (S (it' - S it - 1)) by lia. econstructor; [|exact Hu].
          split; [exists nit, cv; assumption|assumption].
        * split; [assumption|]. split; [reflexivity|]. intros. apply Hle. lia.
  Qed.

  Lemma distance_flat : forall (c : nat -> R) (p : tensor), (0 < sz)%nat ->
      distance_is (ex_n exo) N n_x (unflatten N n_x c) p (supnorm sz (fun q => c q - flatten N n_x p q)).
  Proof.
    intros c p H. destruct (distance_supnorm N n_x (ex_n exo) c (flatten N n_x p) H) as [H1 (i & n & k & Hi & Hn & Hk & E)].
    split.
    - intros i' n' k' Hi' Hn' Hk'. specialize (H1 i' n' k' Hi' Hn' Hk'). rewrite unflatten_flatten in H1 by assumption. exact H1.
    - exists i, n, k. repeat (split; [assumption|]). rewrite unflatten_flatten in E by assumption. exact E.
  Qed.

  Lemma updates_tensor : forall im bounds tol k v w, (0 < sz)%nat ->
      updates (flat_step im (flat_bounds bounds) tol) k v w ->
      forall p0, flatten N n_x p0 = v ->
      exists p, flatten N n_x p = w /\ updates (big_update im bounds tol) k p0 p.
  Proof.
    intros im bounds tol k v w Hsz H. induction H as [v|k u v w [(nit & cv & E) Hlt] Hu IH]; intros p0 Hp.
    - exists p0. split; [assumption|constructor].
    - destruct (size_pos ltac:(lia)) as (HN & Hx & _).
      destruct (IH (unflatten N n_x v)) as (p & Ep & Up); [apply flatten_unflatten_eq; assumption|].
      exists p. split; [assumption|]. econstructor; [|exact Up]. subst u. split.
      + exists nit, v, cv. split; [assumption|reflexivity].
      + eexists. split; [apply distance_flat; assumption|assumption].
  Qed.

  Lemma time_iteration_run : forall tol maxit im bounds x0 r,
      time_iteration g f exo s n_x interpolate lsolve nan tol maxit im bounds x0 = Ok r ->
      (1 <= ti_iterations r <= maxit)%nat /\ tol < 10 /\
      (ti_converged r = true <-> ti_err r < tol) /\
      ((ti_iterations r < maxit)%nat -> ti_err r <= tol) /\
      exists p nit,
        updates (big_update im bounds tol) (ti_iterations r - 1) x0 p /\
        ti_update im bounds nit p (ti_controls r) /\
        distance_is (ex_n exo) N n_x (ti_controls r) p (ti_err r).
  Proof.
    intros tol maxit im bounds x0 r H. unfold time_iteration in H.
    cbv zeta in H.
    replace (match bounds with
             | Some (l, u) => Some (fun q : nat => l (q / n_x / N)%nat ((q / n_x) mod N)%nat (q mod n_x)%nat,
                                    fun q : nat => u (q / n_x / N)%nat ((q / n_x) mod N)%nat (q mod n_x)%nat)
             | None => None end) with (flat_bounds bounds) in H by (destruct bounds as [[? ?]|]; reflexivity).
    match type of H with bind ?L _ = _ => destruct L as [[[ctl it] err]|e] eqn:E end; [|discriminate].
    cbn [bind] in H. apply ti_loop_run in E.
    destruct E as [(-> & -> & -> & Hend)|(Hsz & Hlt & Hit & p & c & nit & cv & -> & Hu & Ein & -> & Hle)]; [discriminate|].
    injection H as <-. cbn [ti_iterations ti_converged ti_err ti_controls].
    split; [lia|]. split; [assumption|]. split.
    { destruct (Rlt_dec _ tol); split; intros; try assumption; try reflexivity; [discriminate|contradiction]. }
    split; [intros; apply Hle; lia|]. rewrite Nat.sub_0_r in Hu.
    destruct (updates_tensor im bounds tol _ _ _ ltac:(lia) Hu x0 eq_refl) as (p' & Ep & Up).
    exists p', nit. split; [assumption|]. split.
    - exists c, cv. rewrite Ep. split; [assumption|reflexivity].
    - subst p. apply distance_flat. lia.
  Qed.

  (** What one update achieves when the inner solver stopped by itself. *)
  Lemma ti_fn_at : forall p v i n k, (i < ex_n exo)%nat -> (n < N)%nat -> (k < n_x)%nat ->
      ti_fn g f exo s n_x interpolate (flatten N n_x p) v ((i * N + n) * n_x + k) =
      eul g f exo s n_x (interpolate (unflatten N n_x (flatten N n_x p))) (unflatten N n_x v) (dp_n (ex_dp exo) i) i n k.
  Proof.
    intros. unfold ti_fn. rewrite flatten_at by assumption. apply residuals_total_value; assumption.
  Qed.

  Hypothesis interpolate_local : interpolates_values exo N n_x interpolate.

  Lemma eul_local : forall p x c i n k, (i < ex_n exo)%nat -> (c <= dp_n (ex_dp exo) i)%nat ->
      eul g f exo s n_x (interpolate (unflatten N n_x (flatten N n_x p))) x c i n k =
      eul g f exo s n_x (interpolate p) x c i n k.
  Proof.
    intros p x c i n k Hi Hc. unfold eul. apply euler_ext. intros j q Hj. apply interpolate_local; [|assumption|lia].
    intros. apply unflatten_flatten; assumption.
  Qed.

  Lemma ti_update_bounds : forall im lb ub nit p c,
      (forall i n k, (i < ex_n exo)%nat -> (n < N)%nat -> (k < n_x)%nat ->
         lb i n k <> PInf /\ ub i n k <> MInf /\ ext_le (lower_cut BIG (lb i n k)) (upper_cut BIG (ub i n k))) ->
      sz <> 0%nat ->
      ti_update im (Some (lb, ub)) nit p c -> (nit < im)%nat ->
      forall i n k, (i < ex_n exo)%nat -> (n < N)%nat -> (k < n_x)%nat ->
        mcp_approx (3 * ncp_tol) (lower_cut BIG (lb i n k)) (upper_cut BIG (ub i n k)) (c i n k)
          (eul g f exo s n_x (interpolate p) c (dp_n (ex_dp exo) i) i n k).
  Proof.
    intros im lb ub nit p c Hb Hsz (v & cv & E & ->) Hnit i n k Hi Hn Hk.
    unfold ti_inner, TimeIteration.flat_bounds in E. cbv zeta in E.
    apply ncpsolve_final in E; [|lia|discriminate|].
    - destruct E as (_ & E). specialize (E Hnit ((i * N + n) * n_x + k)%nat (flat_bound N n_x (ex_n exo) i n k Hi Hn Hk)).
      unfold serial_function in E. cbn [fst] in E. rewrite ti_fn_at in E by assumption.
      rewrite eul_local in E by lia.
      unfold TimeIteration.flat_ext in E.
      assert (F1 : (((i * N + n) * n_x + k) / n_x / N = i)%nat).
      { rewrite Nat.div_add_l by lia. rewrite (Nat.div_small k) by lia. rewrite Nat.add_0_r, Nat.div_add_l by lia.
        rewrite Nat.div_small by lia. lia. }
      assert (F2 : ((((i * N + n) * n_x + k) / n_x) mod N = n)%nat).
      { rewrite Nat.div_add_l by lia. rewrite (Nat.div_small k) by lia. rewrite Nat.add_0_r, Nat.add_comm, Nat.mod_add by lia.
        apply Nat.mod_small. lia. }
      assert (F3 : (((i * N + n) * n_x + k) mod n_x = k)%nat).
      { rewrite Nat.add_comm, Nat.mod_add by lia. apply Nat.mod_small. lia. }
      rewrite F1, F2, F3 in E. exact E.
    - intros q Hq. destruct (flat_split N n_x (ex_n exo) q Hq) as (A & B & C). apply Hb; assumption.
  Qed.

  Lemma ti_update_free : forall im nit p c,
      sz <> 0%nat ->
      ti_update im None nit p c -> (nit < im)%nat ->
      forall i n k, (i < ex_n exo)%nat -> (n < N)%nat -> (k < n_x)%nat ->
        Rabs (eul g f exo s n_x (interpolate p) c (dp_n (ex_dp exo) i) i n k) < newton_tol.
  Proof.
    intros im nit p c Hsz (v & cv & E & ->) Hnit i n k Hi Hn Hk.
    unfold ti_inner, TimeIteration.flat_bounds in E. cbv zeta in E.
    apply newton_final in E; [|lia]. destruct E as (_ & _ & E & _). specialize (E Hnit).
    eapply Rle_lt_trans; [|exact E]. unfold serial_function. cbn [fst].
    pose proof (supnorm_ge sz (ti_fn g f exo s n_x interpolate (flatten N n_x p) v) _ (flat_bound N n_x (ex_n exo) i n k Hi Hn Hk)) as H.
    rewrite ti_fn_at in H by assumption. rewrite eul_local in H by lia. exact H.
  Qed.
End Loop.

(** From the previous rule to the returned one. *)
Lemma size_of_range : forall exo (s : list (list R)) n_x i n k, (i < ex_n exo)%nat -> (n < length s)%nat -> (k < n_x)%nat -> size exo s n_x <> 0%nat.
Proof.
  intros. unfold size. assert (0 < ex_n exo * length s * n_x)%nat; [|lia].
  apply Nat.mul_pos_pos; [apply Nat.mul_pos_pos|]; lia.
Qed.

Lemma bounds_final : forall g f exo s n_x interpolate lsolve nan tol maxit im lb ub x0 r,
    interpolates_values exo (length s) n_x interpolate ->
    (forall i n k, (i < ex_n exo)%nat -> (n < length s)%nat -> (k < n_x)%nat ->
       lb i n k <> PInf /\ ub i n k <> MInf /\ ext_le (lower_cut BIG (lb i n k)) (upper_cut BIG (ub i n k))) ->
    time_iteration g f exo s n_x interpolate lsolve nan tol maxit im (Some (lb, ub)) x0 = Ok r ->
    exists p nit,
      ti_update g f exo s n_x interpolate lsolve nan im (Some (lb, ub)) nit p (ti_controls r) /\
      distance_is (ex_n exo) (length s) n_x (ti_controls r) p (ti_err r) /\
      ((nit < im)%nat ->
       forall i n k, (i < ex_n exo)%nat -> (n < length s)%nat -> (k < n_x)%nat ->
         mcp_approx (3 * ncp_tol) (lower_cut BIG (lb i n k)) (upper_cut BIG (ub i n k)) (ti_controls r i n k)
           (euler g f (dp_n (ex_dp exo) i) (dp_weight (ex_dp exo) i) (dp_node (ex_dp exo) i) (interpolate p i)
                  (ex_node exo i) (nth n s []) (at_node n_x (ti_controls r) i n) k)).
Proof.
  intros g f exo s n_x interpolate lsolve nan tol maxit im lb ub x0 r Hloc Hb H.
  apply time_iteration_run in H. destruct H as (_ & _ & _ & _ & p & nit & _ & Hu & Hd).
  exists p, nit. split; [assumption|]. split; [assumption|]. intros Hlt i n k Hi Hn Hk.
  exact (ti_update_bounds g f exo s n_x interpolate lsolve nan Hloc im lb ub nit p _ Hb
           (size_of_range exo s n_x i n k Hi Hn Hk) Hu Hlt i n k Hi Hn Hk).
Qed.

Lemma free_final : forall g f exo s n_x interpolate lsolve nan tol maxit im x0 r,
    interpolates_values exo (length s) n_x interpolate ->
    time_iteration g f exo s n_x interpolate lsolve nan tol maxit im None x0 = Ok r ->
    let E := fun (rule x : tensor) i n k =>
      euler g f (dp_n (ex_dp exo) i) (dp_weight (ex_dp exo) i) (dp_node (ex_dp exo) i) (interpolate rule i)
            (ex_node exo i) (nth n s []) (at_node n_x x i n) k in
    exists p nit,
      ti_update g f exo s n_x interpolate lsolve nan im None nit p (ti_controls r) /\
      distance_is (ex_n exo) (length s) n_x (ti_controls r) p (ti_err r) /\
      ((nit < im)%nat ->
       forall i n k, (i < ex_n exo)%nat -> (n < length s)%nat -> (k < n_x)%nat ->
         Rabs (E p (ti_controls r) i n k) < newton_tol /\
         (forall K, (forall a b e, distance_is (ex_n exo) (length s) n_x a b e ->
                        Rabs (E a a i n k - E b a i n k) <= K * e) ->
                    Rabs (E (ti_controls r) (ti_controls r) i n k) < newton_tol + K * ti_err r)).
Proof.
  intros g f exo s n_x interpolate lsolve nan tol maxit im x0 r Hloc H E.
  apply time_iteration_run in H. destruct H as (_ & _ & _ & _ & p & nit & _ & Hu & Hd).
  exists p, nit. split; [assumption|]. split; [assumption|]. intros Hlt i n k Hi Hn Hk.
  assert (H : Rabs (E p (ti_controls r) i n k) < newton_tol).
  { exact (ti_update_free g f exo s n_x interpolate lsolve nan Hloc im nit p _ (size_of_range exo s n_x i n k Hi Hn Hk)
             Hu Hlt i n k Hi Hn Hk). }
  split; [exact H|]. intros K HK. specialize (HK _ _ _ Hd).
  replace (E (ti_controls r) (ti_controls r) i n k)
    with (E p (ti_controls r) i n k + (E (ti_controls r) (ti_controls r) i n k - E p (ti_controls r) i n k)) by ring.
  eapply Rle_lt_trans; [apply Rabs_triang|]. lra.
Qed.

(** With no inner iteration allowed, the first pass already reports convergence. *)
Lemma no_inner : forall g f exo s n_x interpolate lsolve nan tol maxit bounds x0,
    size exo s n_x <> 0%nat -> 0 < tol < 10 -> (0 < maxit)%nat ->
    exists r, time_iteration g f exo s n_x interpolate lsolve nan tol maxit 0 bounds x0 = Ok r /\
      ti_converged r = true /\ ti_iterations r = 1%nat /\
      forall i n k, (n < length s)%nat -> (k < n_x)%nat -> ti_controls r i n k = x0 i n k.
Proof.
  intros g f exo s n_x interpolate lsolve nan tol maxit bounds x0 Hsz Ht Hm.
  destruct maxit as [|maxit]; [lia|]. unfold time_iteration. cbv zeta. cbn [ti_loop].
  destruct (Rlt_dec tol 10) as [_|]; [|lra]. destruct (Nat.eqb_spec (size exo s n_x) 0); [contradiction|].
  assert (E : forall fb, ti_inner g f exo s n_x interpolate lsolve nan 0 fb (flatten (length s) n_x x0)
              = Ok (flatten (length s) n_x x0, 0%nat, false)) by (intros [[? ?]|]; reflexivity).
  rewrite E. cbn [bind fst].
  assert (Z : supnorm (size exo s n_x) (fun q => flatten (length s) n_x x0 q - flatten (length s) n_x x0 q) = 0).
  { apply supnorm_zero_iff. intros; ring. }
  rewrite Z.
  assert (L : forall fb c, ti_loop g f exo s n_x interpolate lsolve nan tol 0 fb maxit 1 0 c (Some c) = Ok (Some c, 1%nat, 0)).
  { intros fb c. destruct maxit; cbn [ti_loop]; [reflexivity|]. destruct (Rlt_dec tol 0); [lra|reflexivity]. }
  rewrite L. cbn [bind]. eexists. split; [reflexivity|]. cbn [ti_converged ti_iterations ti_controls].
  destruct (Rlt_dec 0 tol); [|lra]. repeat split. intros. apply unflatten_flatten; assumption.
Qed.

(** The body of the loop must run at least once. *)
Lemma never_runs : forall g f exo s n_x interpolate lsolve nan tol maxit im bounds x0,
    maxit = 0%nat \/ 10 <= tol ->
    time_iteration g f exo s n_x interpolate lsolve nan tol maxit im bounds x0 = Err ExcName.
Proof.
  intros g f exo s n_x interpolate lsolve nan tol maxit im bounds x0 H. unfold time_iteration. cbv zeta.
  destruct maxit as [|maxit]; cbn [ti_loop bind]; [reflexivity|]. destruct H as [|H]; [lia|].
  destruct (Rlt_dec tol 10); [lra|]. reflexivity.
Qed.

(** ** Warm starts *)
Lemma fill_controls_ok : forall n_ms N n_x call (v : nat -> nat -> nat -> R),
    (forall i, (i < n_ms)%nat -> exists rows, call i = Ok (P2 rows) /\ length rows = N /\
       forall n, (n < N)%nat -> nth n rows [] = map (v i n) (seq 0 n_x)) ->
    exists x, fill_controls n_ms N n_x call = Ok x /\
      forall i n k, (i < n_ms)%nat -> (n < N)%nat -> (k < n_x)%nat -> x i n k = v i n k.
Proof.
  intros n_ms N n_x call v H. unfold fill_controls.
  match goal with |- context [for_range_res _ ?B _] => set (body := B) end.
  destruct (for_range_res_ok (fun c (acc : tensor) => forall i n k, (i < c)%nat -> (n < N)%nat -> (k < n_x)%nat ->
                 acc i n k = v i n k) n_ms body (fun _ _ _ => 0)) as (r & E & Hr).
  - intros; lia.
  - intros c acc Hc Hacc. destruct (H c Hc) as (rows & Ec & Hl & Hrows). unfold body. rewrite Ec. cbn [bind].
    rewrite Hl, Nat.eqb_refl. cbn [andb].
    assert (F : forallb (fun r => Nat.eqb (length r) n_x) rows = true).
    { apply forallb_forall. intros r Hin. apply (In_nth _ _ []) in Hin. destruct Hin as (n & Hn & <-).
      rewrite Hrows by lia. rewrite map_length, seq_length. apply Nat.eqb_refl. }
    rewrite F. eexists. split; [reflexivity|]. intros i n k Hi Hn Hk. cbv beta.
    destruct (Nat.eqb_spec i c) as [->|Hne].
    + rewrite Hrows by assumption. apply nth_map_seq. assumption.
    + apply Hacc; lia.
  - exists r. split; assumption.
Qed.

Definition nd_of (n_m N n_x : nat) (x : tensor) : nd := {| nd_shape := [n_m; N; n_x]; nd_data := flatten N n_x x |}.

Lemma values_at_nd_of : forall n_m N n_x x i n, (n < N)%nat ->
    values_at (nd_of n_m N n_x x) n_x (i * N + n) = map (x i n) (seq 0 n_x).
Proof.
  intros n_m N n_x x i n Hn. unfold values_at, nd_of. cbn [nd_data]. apply map_ext_in. intros k Hk.
  apply in_seq in Hk. apply flatten_at; lia.
Qed.

Lemma nth_nodes : forall endo n N, (n < N)%nat -> nth n (map (node_of endo) (seq 0 N)) [] = node_of endo n.
Proof. intros. apply nth_map_seq. assumption. Qed.

Lemma warm_start_unstructured : forall el pre ec exo nodes endo dims x0 n_x x,
    cubic_contract pre ec -> cartesian_grid endo dims -> (0 < prodn dims)%nat -> length x0 = n_x ->
    exists c, get_coefficients pre (GUnstructured nodes) endo Cubic (nd_of (ex_n exo) (prodn dims) n_x x) = Ok c /\
    exists y, initial_controls exo (map (node_of endo) (seq 0 (prodn dims))) x0
                (Some (call2 (eval_is el ec (GUnstructured nodes) endo Cubic c) (eval_ms el ec (GUnstructured nodes) endo Cubic c))) = Ok y /\
      forall i n k, (i < ex_n exo)%nat -> (n < prodn dims)%nat -> (k < n_x)%nat -> y i n k = x i n k.
Proof.
  intros el pre ec exo nodes endo dims x0 n_x x Hc Hg Hd Hl.
  destruct (unstructured_cubic_rule el pre ec Hc nodes endo dims (ex_n exo) n_x (nd_of (ex_n exo) (prodn dims) n_x x)
              Hg Hd eq_refl) as (c & F & E & H1 & H2).
  exists c. split; [exact E|]. unfold initial_controls. rewrite map_length, seq_length, Hl.
  destruct (fill_controls_ok (ex_n exo) (prodn dims) n_x
     (fun i => call2 (eval_is el ec (GUnstructured nodes) endo Cubic c) (eval_ms el ec (GUnstructured nodes) endo Cubic c)
                (Idx (IInt i)) (P2 (map (node_of endo) (seq 0 (prodn dims))))) x) as (y & Ey & Hy).
  - intros i Hi. exists (map (F i) (map (node_of endo) (seq 0 (prodn dims)))). split; [|split].
    + unfold call2. rewrite H1 by assumption. reflexivity.
    + rewrite !map_length, seq_length. reflexivity.
    + intros n Hn. rewrite map_map. rewrite nth_map_seq by assumption. rewrite H2 by assumption.
      apply values_at_nd_of. assumption.
  - rewrite Ey. exists y. split; [reflexivity|assumption].
Qed.

Lemma warm_start_empty : forall el pre ec exo endo dims x0 n_x x k,
    linear_contract el -> cubic_contract pre ec -> cartesian_grid endo dims -> (0 < prodn dims)%nat -> length x0 = n_x ->
    k = Linear \/ k = Cubic -> ex_n exo = 1%nat ->
    exists c, get_coefficients pre GEmpty endo k (nd_of 1 (prodn dims) n_x x) = Ok c /\
    exists y, initial_controls exo (map (node_of endo) (seq 0 (prodn dims))) x0
                (Some (call2 (eval_is el ec GEmpty endo k c) (eval_ms el ec GEmpty endo k c))) = Ok y /\
      forall n q, (n < prodn dims)%nat -> (q < n_x)%nat -> y 0%nat n q = x 0%nat n q.
Proof.
  intros el pre ec exo endo dims x0 n_x x k Hel Hc Hg Hd Hl Hk Hex.
  destruct (empty_rule el pre ec Hel Hc endo dims (prodn dims) n_x (nd_of 1 (prodn dims) n_x x) k
              Hg eq_refl Hd eq_refl Hk) as (c & F & E & H1 & H2).
  exists c. split; [exact E|]. unfold initial_controls. rewrite map_length, seq_length, Hl, Hex.
  destruct (fill_controls_ok 1 (prodn dims) n_x
     (fun i => call2 (eval_is el ec GEmpty endo k c) (eval_ms el ec GEmpty endo k c)
                (Idx (IInt i)) (P2 (map (node_of endo) (seq 0 (prodn dims))))) x) as (y & Ey & Hy).
  - intros i Hi. assert (i = 0%nat) as -> by lia. exists (map F (map (node_of endo) (seq 0 (prodn dims)))). split; [|split].
    + unfold call2, eval_is. rewrite H1. reflexivity.
    + rewrite !map_length, seq_length. reflexivity.
    + intros n Hn. rewrite map_map. rewrite nth_map_seq by assumption. rewrite H2 by assumption.
      apply (values_at_nd_of 1 (prodn dims) n_x x 0 n). assumption.
  - rewrite Ey. exists y. split; [reflexivity|]. intros. apply Hy; lia.
Qed.

Lemma fill_controls_err : forall n_ms N n_x call e, (0 < n_ms)%nat -> call 0%nat = Err e ->
    fill_controls n_ms N n_x call = Err e.
Proof.
  intros n_ms N n_x call e Hn E. unfold fill_controls. destruct n_ms as [|n]; [lia|]. clear Hn.
  induction n as [|n IH]; [cbn [for_range_res bind]; rewrite E; reflexivity|].
  cbn [for_range_res] in IH |- *. rewrite IH. reflexivity.
Qed.

Lemma warm_start_cartesian : forall el ec dexo_ s x0 exo endo k c g,
    (exists u, exo = GUniform u) \/ (exists u, exo = GNonUniform u) -> k = Linear \/ k = Cubic ->
    grid_add exo endo = Ok g -> length s <> 1%nat -> (0 < ex_n dexo_)%nat -> (0 < n_nodes exo)%nat ->
    initial_controls dexo_ s x0 (Some (call2 (eval_is el ec exo endo k c) (eval_ms el ec exo endo k c))) = Err ExcValue.
Proof.
  intros el ec dexo_ s x0 exo endo k c g Hexo Hk Hadd Hs Hn Hnn.
  destruct (cartesian_mixed_call el ec exo endo k c s g Hexo Hk Hadd Hs) as (H1 & H2).
  unfold initial_controls.
  rewrite (fill_controls_err _ _ _ (fun i => call2 (eval_is el ec exo endo k c) (eval_ms el ec exo endo k c) (Idx (IInt i)) (P2 s)) ExcValue Hn) by (apply H2; exact Hnn).
  apply fill_controls_err; [exact Hn|apply H1].
Qed.

(** ** A small run: one state, one control, arbitrage equation x = 2. *)
Definition one_exo : dexo :=
  {| ex_n := 1; ex_node := fun _ => [0]; ex_dp := {| dp_n := fun _ => 1%nat; dp_weight := fun _ _ => 1; dp_node := fun _ _ => [0] |} |}.
Definition eq2 (m s x M S X : list R) (k : nat) : R := hd 0 x - 2.
Definition diag_solve (J : nat -> nat -> R) (v : nat -> R) : res (nat -> R) :=
  if Req_EM_T (J 0%nat 0%nat) 0 then Err ExcLinAlg else Ok (fun q => v q / J 0%nat 0%nat).

Section Small.
  Variable ip : tensor -> nat -> nat -> list R -> list R.
  Notation fn := (ti_fn (fun _ s _ _ => s) eq2 one_exo [[0]] 1 ip).
  Notation dfn c0 := (serial_function 1 (fn c0)).

  Lemma small_fn : forall c0 v, fn c0 v 0%nat = v 0%nat - 2.
  Proof.
    intros. unfold ti_fn, flatten.
    change (0 / 1 / length [[0%R]])%nat with 0%nat. change ((0 / 1) mod length [[0%R]])%nat with 0%nat.
    change (0 mod 1)%nat with 0%nat. rewrite residuals_total_value by (cbn; lia).
    unfold eul, euler, at_node, eq2, unflatten. cbn. lra.
  Qed.

  Lemma small_norm : forall c0 v, supnorm 1 (fn c0 v) = Rabs (v 0%nat - 2).
  Proof.
    intros. unfold supnorm. cbn [vmax]. rewrite small_fn. apply Rmax_right. apply Rabs_pos.
  Qed.

  Lemma small_jac : forall c0 v, snd (dfn c0 v) 0%nat 0%nat = 1.
  Proof.
    intros. unfold serial_function. cbn [snd].
    change (if (0 / 1 =? 0 / 1)%nat then ?a else ?b) with a. unfold serial_diff.
    change (0 / 1)%nat with 0%nat. change (0 mod 1)%nat with 0%nat. cbn [Nat.mul Nat.add].
    rewrite !small_fn. unfold shift_col, shift. change (0 / 1)%nat with 0%nat. change (0 mod 1)%nat with 0%nat.
    cbn [Nat.eqb Nat.mul Nat.add]. unfold serial_eps. field.
  Qed.

  Lemma small_stop : forall im c0, (0 < im)%nat -> c0 0%nat = 2 ->
      newton 1 (dfn c0) diag_solve newton_tol im c0 = Ok (c0, 0%nat, true).
  Proof.
    intros im c0 Him H. unfold newton. destruct im as [|im]; [lia|]. cbn [newton_loop Nat.eqb].
    destruct (dfn c0 c0) as [v dv] eqn:E. assert (Ev : v = fn c0 c0) by (unfold serial_function in E; congruence).
    subst v. rewrite small_norm, H. destruct (Rlt_dec _ newton_tol) as [_|Hn]; [reflexivity|].
    exfalso. apply Hn. replace (2 - 2) with 0 by ring. rewrite Rabs_R0. unfold newton_tol. lra.
  Qed.

  Lemma small_move : forall im c0, (1 < im)%nat -> c0 0%nat = 0 ->
      exists c, newton 1 (dfn c0) diag_solve newton_tol im c0 = Ok (c, 1%nat, true) /\ c 0%nat = 2.
  Proof.
    intros im c0 Him H. unfold newton. destruct im as [|im]; [lia|]. cbn [newton_loop Nat.eqb].
    destruct (dfn c0 c0) as [v dv] eqn:E.
    assert (Ev : v = fn c0 c0) by (unfold serial_function in E; congruence).
    assert (Ed : dv 0%nat 0%nat = 1) by (pose proof (small_jac c0 c0) as J; rewrite E in J; exact J).
    subst v. rewrite small_norm, H. replace (0 - 2) with (- (2)) by ring. rewrite Rabs_Ropp, Rabs_pos_eq by lra.
    destruct (Rlt_dec 2 newton_tol) as [Hn|_]; [unfold newton_tol in Hn; lra|].
    unfold diag_solve at 1. rewrite Ed. destruct (Req_EM_T 1 0) as [|_]; [lra|]. cbn [bind].
    set (dx := fun q => fn c0 c0 q / 1).
    assert (T : trial c0 dx 0 0%nat = 2) by (unfold trial, dx; rewrite small_fn, H; cbn; field).
    assert (B : backtrack 1 (dfn c0) (maxbacksteps - 1) 0 2 c0 dx = trial c0 dx 0).
    { unfold maxbacksteps. cbn [Nat.sub backtrack]. change (fst (dfn c0 (trial c0 dx 0))) with (fn c0 (trial c0 dx 0)).
      rewrite small_norm, T. replace (2 - 2) with 0 by ring. rewrite Rabs_R0. destruct (Rlt_dec 0 2); [reflexivity|lra]. }
    rewrite B. exists (trial c0 dx 0). split; [|exact T].
    destruct im as [|im]; [lia|]. cbn [newton_loop Nat.eqb].
    destruct (dfn c0 (trial c0 dx 0)) as [v2 dv2] eqn:E2.
    assert (Ev2 : v2 = fn c0 (trial c0 dx 0)) by (unfold serial_function in E2; congruence).
    subst v2. rewrite small_norm, T. destruct (Rlt_dec _ newton_tol) as [_|Hn]; [reflexivity|].
    exfalso. apply Hn. replace (2 - 2) with 0 by ring. rewrite Rabs_R0. unfold newton_tol. lra.
  Qed.

  Lemma small_run : forall nan, exists r,
      time_iteration (fun _ s _ _ => s) eq2 one_exo [[0]] 1 ip diag_solve nan (1 / 1000) 5 10 None (fun _ _ _ => 0) = Ok r /\
      ti_converged r = true /\ ti_iterations r = 2%nat /\ ti_controls r 0%nat 0%nat 0%nat = 2.
  Proof.
    intros nan. unfold time_iteration. cbv zeta. cbn [length]. set (z := flatten 1 1 (fun _ _ _ => 0)).
    destruct (small_move 10 z ltac:(lia) eq_refl) as (c & Ec & Hc).
    pose proof (small_stop 10 c ltac:(lia) Hc) as Es.
    cbn [ti_loop]. destruct (Rlt_dec (1 / 1000) 10) as [_|]; [|lra].
    change (size one_exo [[0]] 1) with 1%nat. cbn [Nat.eqb]. unfold ti_inner. change (size one_exo [[0]] 1) with 1%nat.
    rewrite Ec. cbn [bind fst].
    assert (S1 : supnorm 1 (fun q => c q - z q) = 2).
    { unfold supnorm. cbn [vmax]. rewrite Hc. change (z 0%nat) with 0. rewrite Rminus_0_r, Rabs_pos_eq by lra.
      apply Rmax_right. lra. }
    rewrite S1. destruct (Rlt_dec (1 / 1000) 2) as [_|]; [|lra].
    rewrite Es. cbn [bind fst].
    assert (S2 : supnorm 1 (fun q => c q - c q) = 0) by (apply supnorm_zero_iff; intros; ring).
    rewrite S2. destruct (Rlt_dec (1 / 1000) 0) as [|_]; [lra|]. cbn [bind].
    eexists. split; [reflexivity|]. cbn [ti_converged ti_iterations ti_controls].
    destruct (Rlt_dec 0 (1 / 1000)); [|lra]. repeat split. unfold unflatten. cbn. exact Hc.
  Qed.
End Small.
