(** Proofs about ergodic distributions. *)
From Coq Require Import String Reals List Arith ZArith Lia Lra Psatz Bool.
From Verif.Base Require Import Prelude Sums Arrays.
From Verif.Spec Require Import Product Markov LinearAlgebra StateGrid.
From Verif.Model Require Import LinearSolve Discretization Grids Distributions Processes Ergodic.
From Verif.Proofs Require Import GaussFinal GridProofs.
Import ListNotations.
Open Scope R_scope.

Lemma clamp01_bounds : forall x, 0 <= clamp01 x <= 1.
Proof. intros x. unfold clamp01, Rmin, Rmax. repeat destruct Rle_dec; lra. Qed.

Lemma clamp01_id : forall x, 0 <= x <= 1 -> clamp01 x = x.
Proof. intros x H. unfold clamp01, Rmin, Rmax. repeat destruct Rle_dec; lra. Qed.

Definition hat (n : nat) (x : R) (k : nat) : R :=
  (if Nat.eqb k (hand_index n x) then 1 - hand_lambda n x else 0)
  + (if Nat.eqb k (hand_index n x + 1) then hand_lambda n x else 0).

Lemma delta_div : forall n y, (2 <= n)%nat -> y / (1 / (INR n - 1)) = y * (INR n - 1).
Proof. intros n y Hn. pose proof (INR_pred_pos n Hn). field. lra. Qed.

Lemma hand_facts : forall n x, (2 <= n)%nat ->
    (hand_index n x + 1 < n)%nat /\ IZR (hand_q n x) = INR (hand_index n x) /\
    0 <= hand_lambda n x <= 1 /\
    INR (hand_index n x) + hand_lambda n x = clamp01 x * (INR n - 1) /\
    hand_lambda2 n x = hand_lambda n x.
Proof.
  intros n x Hn. pose proof (INR_pred_pos n Hn) as Hp. pose proof (clamp01_bounds x) as Hc.
  assert (H12 : hand_lambda2 n x = hand_lambda n x).
  { unfold hand_lambda2, hand_lambda. field. lra. }
  unfold hand_index, hand_lambda in *. unfold hand_q in *. rewrite delta_div in * by exact Hn.
  set (y := clamp01 x * (INR n - 1)) in *.
  assert (Hy : 0 <= y <= INR n - 1) by (unfold y; nra).
  pose proof (base_Int_part y) as [B1 B2].
  assert (Hz : (0 <= Int_part y)%Z).
  { apply le_IZR. assert (-1 < IZR (Int_part y)) by lra. change (-1) with (IZR (-1)) in H. apply lt_IZR in H.
    apply IZR_le. lia. }
  rewrite Z.max_r by exact Hz.
  assert (Hnz : INR n = IZR (Z.of_nat n)) by apply INR_IZR_INZ.
  assert (Hm : (0 <= Z.min (Int_part y) (Z.of_nat n - 2))%Z) by lia.
  assert (HI : INR (Z.to_nat (Z.min (Int_part y) (Z.of_nat n - 2))) = IZR (Z.min (Int_part y) (Z.of_nat n - 2))).
  { rewrite INR_IZR_INZ, Z2Nat.id by exact Hm. reflexivity. }
  split; [|split; [|split; [|split]]].
  - lia.
  - symmetry. exact HI.
  - destruct (Z.min_spec (Int_part y) (Z.of_nat n - 2)) as [[L ->]|[L ->]].
    + lra.
    + apply IZR_le in L. rewrite minus_IZR, <- Hnz in *. lra.
  - rewrite HI. ring.
  - rewrite H12. rewrite Z.max_r by exact Hz. reflexivity.
Qed.

Lemma hat_nonneg : forall n x k, (2 <= n)%nat -> 0 <= hat n x k.
Proof.
  intros n x k Hn. destruct (hand_facts n x Hn) as (_ & _ & H & _). unfold hat.
  destruct (Nat.eqb k _), (Nat.eqb k _); lra.
Qed.

Lemma rsum_delta : forall n k (v : nat -> R), (k < n)%nat ->
    rsum n (fun i => if Nat.eqb i k then v i else 0) = v k.
Proof.
  intros n k v Hk. rewrite (rsum_single n k).
  - rewrite Nat.eqb_refl. reflexivity.
  - exact Hk.
  - intros i Hi Hn. destruct (Nat.eqb_spec i k); [contradiction|reflexivity].
Qed.

Lemma hat_weighted : forall n x (f : nat -> R), (2 <= n)%nat ->
    rsum n (fun k => hat n x k * f k)
    = (1 - hand_lambda n x) * f (hand_index n x) + hand_lambda n x * f (hand_index n x + 1)%nat.
Proof.
  intros n x f Hn. destruct (hand_facts n x Hn) as (Hi & _ & _).
  rewrite (rsum_ext n _ (fun k => (if Nat.eqb k (hand_index n x) then (1 - hand_lambda n x) * f k else 0)
     + (if Nat.eqb k (hand_index n x + 1) then hand_lambda n x * f k else 0)))
    by (intros k _; unfold hat; destruct (Nat.eqb k _), (Nat.eqb k _); ring).
  rewrite rsum_plus, !rsum_delta by lia. reflexivity.
Qed.

Lemma hat_sum : forall n x, (2 <= n)%nat -> rsum n (hat n x) = 1.
Proof.
  intros n x Hn. rewrite (rsum_ext n _ (fun k => hat n x k * 1)) by (intros; ring).
  rewrite (hat_weighted n x (fun _ => 1) Hn). ring.
Qed.

Lemma hat_mean : forall n x, (2 <= n)%nat ->
    rsum n (fun k => hat n x k * (INR k / (INR n - 1))) = clamp01 x.
Proof.
  intros n x Hn. rewrite (hat_weighted n x (fun k => INR k / (INR n - 1)) Hn).
  destruct (hand_facts n x Hn) as (_ & _ & _ & H & _). pose proof (INR_pred_pos n Hn).
  rewrite plus_INR. simpl INR. apply Rmult_eq_reg_r with (INR n - 1); [|lra]. rewrite <- H. field. lra.
Qed.

Lemma hat_near : forall n x k, (2 <= n)%nat -> hat n x k <> 0 ->
    Rabs (INR k / (INR n - 1) - clamp01 x) < 1 / (INR n - 1).
Proof.
  intros n x k Hn Hk. destruct (hand_facts n x Hn) as (_ & _ & Hl & H & _). pose proof (INR_pred_pos n Hn) as Hp.
  assert (E : INR k / (INR n - 1) - clamp01 x = (INR k - (INR (hand_index n x) + hand_lambda n x)) / (INR n - 1)).
  { rewrite H. field. lra. }
  rewrite E. unfold Rdiv. rewrite Rabs_mult, (Rabs_pos_eq (/ (INR n - 1))) by (left; apply Rinv_0_lt_compat; exact Hp).
  apply Rmult_lt_compat_r; [apply Rinv_0_lt_compat; exact Hp|].
  unfold hat in Hk. destruct (Nat.eqb_spec k (hand_index n x)) as [Ek|Ek], (Nat.eqb_spec k (hand_index n x + 1)) as [Ek'|Ek'];
    try lia; try (exfalso; lra).
  - rewrite Ek. unfold Rabs. destruct Rcase_abs; lra.
  - rewrite Ek', plus_INR. simpl INR. unfold Rabs. destruct Rcase_abs; lra.
Qed.

(** ** The loops *)

Lemma hand_1d_spec : forall N n0 A x w, (2 <= n0)%nat ->
    exists A', trembling_hand_1d N n0 A x w = Ok A' /\
      forall n k, A' n k = A n k + (if Nat.ltb n N then w * hat n0 (x n 0%nat) k else 0).
Proof.
  intros N n0 A x w Hn. unfold trembling_hand_1d.
  destruct (Nat.eqb_spec n0 1); [lia|]. destruct (Nat.eqb_spec n0 0); [lia|]. cbn [andb].
  eexists. split; [reflexivity|].
  apply (for_range_inv (fun m B => forall n k, B n k = A n k + (if Nat.ltb n m then w * hat n0 (x n 0%nat) k else 0))).
  - intros n' k. cbn. ring.
  - intros m B Hm IH a k. unfold upd2.
    assert (Hnat : forall p, (p =? p + 1)%nat = false) by (intros p; apply Nat.eqb_neq; lia).
    assert (Hnat2 : forall p, (p + 1 =? p)%nat = false) by (intros p; apply Nat.eqb_neq; lia).
    rewrite !Nat.eqb_refl, !Hnat2. cbn [andb]. rewrite !IH, Nat.ltb_irrefl.
    destruct (Nat.eqb_spec a m) as [->|Ha].
    + destruct (Nat.ltb_spec m (S m)); [|lia]. rewrite Nat.ltb_irrefl. unfold hat. cbn [andb].
      destruct (Nat.eqb_spec k (hand_index n0 (x m 0%nat) + 1)) as [->|]; [rewrite Hnat2; ring|].
      destruct (Nat.eqb_spec k (hand_index n0 (x m 0%nat))) as [->|]; ring.
    + cbn [andb]. destruct (Nat.ltb_spec a m), (Nat.ltb_spec a (S m)); try lia; reflexivity.
Qed.

Lemma upd3_eq : forall (m : nat -> nat -> nat -> R) i j k v a b c,
    upd3 m i j k (m i j k + v) a b c
    = m a b c + (if Nat.eqb a i then (if Nat.eqb b j then (if Nat.eqb c k then v else 0) else 0) else 0).
Proof.
  intros. unfold upd3. destruct (Nat.eqb_spec a i) as [->|]; cbn [andb]; [|ring].
  destruct (Nat.eqb_spec b j) as [->|]; cbn [andb]; [|ring]. destruct (Nat.eqb_spec c k) as [->|]; ring.
Qed.

Lemma hand_2d_spec : forall N n0 n1 A x w, (2 <= n0)%nat -> (2 <= n1)%nat ->
    exists A', trembling_hand_2d N n0 n1 A x w = Ok A' /\
      forall n a b, A' n a b = A n a b + (if Nat.ltb n N then w * (hat n0 (x n 0%nat) a * hat n1 (x n 1%nat) b) else 0).
Proof.
  intros N n0 n1 A x w H0 H1. unfold trembling_hand_2d.
  destruct (Nat.eqb_spec n0 1); [lia|]. destruct (Nat.eqb_spec n1 1); [lia|].
  destruct (Nat.eqb_spec n0 0); [lia|]. destruct (Nat.eqb_spec n1 0); [lia|]. cbn [andb orb].
  eexists. split; [reflexivity|].
  apply (for_range_inv (fun m B => forall n a b, B n a b = A n a b
     + (if Nat.ltb n m then w * (hat n0 (x n 0%nat) a * hat n1 (x n 1%nat) b) else 0))).
  - intros. cbn. ring.
  - intros m B Hm IH c a b. cbv zeta. rewrite !upd3_eq, !IH.
    destruct (hand_facts n0 (x m 0%nat) H0) as (_ & _ & _ & _ & E0).
    destruct (hand_facts n1 (x m 1%nat) H1) as (_ & _ & _ & _ & E1). rewrite E0, E1.
    destruct (Nat.eqb_spec c m) as [->|Hc].
    + rewrite Nat.ltb_irrefl. destruct (Nat.ltb_spec m (S m)); [|lia]. unfold hat.
      destruct (Nat.eqb a (hand_index n0 (x m 0%nat))), (Nat.eqb a (hand_index n0 (x m 0%nat) + 1)),
        (Nat.eqb b (hand_index n1 (x m 1%nat))), (Nat.eqb b (hand_index n1 (x m 1%nat) + 1)); ring.
    + destruct (Nat.ltb_spec c m), (Nat.ltb_spec c (S m)); try lia; ring.
Qed.

(** ** Both cases on flattened arrays *)

Definition hatd (dims : list nat) (x : nat -> R) (k : nat) : R :=
  match dims with
  | [n0] => hat n0 (x 0%nat) k
  | [n0; n1] => hat n0 (x 0%nat) (k / n1) * hat n1 (x 1%nat) (k mod n1)
  | _ => 0
  end.

Definition good_dims (dims : list nat) : Prop :=
  (length dims = 1%nat \/ length dims = 2%nat) /\ Forall (fun n => 2 <= n)%nat dims.

Lemma good_dims_inv : forall dims, good_dims dims ->
    (exists n0, dims = [n0] /\ (2 <= n0)%nat) \/ (exists n0 n1, dims = [n0; n1] /\ (2 <= n0)%nat /\ (2 <= n1)%nat).
Proof.
  intros dims [[H|H] F]; destruct dims as [|n0 [|n1 [|n2 l]]]; try discriminate H.
  - left. exists n0. inversion F; subst. split; [reflexivity|assumption].
  - right. exists n0, n1. inversion F as [|? ? A B]; subst. inversion B; subst. repeat split; assumption.
Qed.

Lemma hand_spec : forall dims N A x w, good_dims dims ->
    exists A', trembling_hand dims N A x w = Ok A' /\
      forall n k, A' n k = A n k + (if Nat.ltb n N then w * hatd dims (x n) k else 0).
Proof.
  intros dims N A x w Hd. destruct (good_dims_inv _ Hd) as [(n0 & -> & H)|(n0 & n1 & -> & H0 & H1)].
  - exact (hand_1d_spec N n0 A x w H).
  - destruct (hand_2d_spec N n0 n1 (fun n a b => A n (a * n1 + b)%nat) x w H0 H1) as (A' & E & HA).
    unfold trembling_hand. rewrite E. cbn [bind]. eexists. split; [reflexivity|].
    intros n k. cbv beta. rewrite HA. cbn [hatd]. replace (k / n1 * n1 + k mod n1)%nat with k; [reflexivity|].
    rewrite Nat.mul_comm. apply Nat.div_mod. lia.
Qed.

Lemma hatd_nonneg : forall dims x k, good_dims dims -> 0 <= hatd dims x k.
Proof.
  intros dims x k Hd. destruct (good_dims_inv _ Hd) as [(n0 & -> & H)|(n0 & n1 & -> & H0 & H1)]; simpl.
  - apply hat_nonneg; exact H.
  - apply Rmult_le_pos; apply hat_nonneg; assumption.
Qed.

Lemma divmod_pair : forall a b n, (b < n)%nat -> ((a * n + b) / n = a /\ (a * n + b) mod n = b)%nat.
Proof.
  intros a b n Hb. split.
  - rewrite Nat.div_add_l by lia. rewrite Nat.div_small by exact Hb. lia.
  - rewrite Nat.add_comm, Nat.mod_add by lia. apply Nat.mod_small; exact Hb.
Qed.

Lemma hatd_weighted2 : forall n0 n1 x f, 
    rsum (n0 * n1) (fun k => hatd [n0; n1] x k * f (k / n1)%nat (k mod n1)%nat)
    = rsum n0 (fun a => rsum n1 (fun b => hat n0 (x 0%nat) a * hat n1 (x 1%nat) b * f a b)).
Proof.
  intros n0 n1 x f. rewrite <- (rsum_prod n0 n1 (fun a b => hat n0 (x 0%nat) a * hat n1 (x 1%nat) b * f a b)).
  apply rsum_ext. intros k _. reflexivity.
Qed.

Lemma hatd_sum : forall dims x, good_dims dims -> rsum (prodn dims) (hatd dims x) = 1.
Proof.
  intros dims x Hd. destruct (good_dims_inv _ Hd) as [(n0 & -> & H)|(n0 & n1 & -> & H0 & H1)]; cbn [prodn].
  - rewrite Nat.mul_1_r. apply hat_sum; exact H.
  - rewrite Nat.mul_1_r. rewrite (rsum_ext _ _ (fun k => hatd [n0; n1] x k * (fun _ _ => 1) (k / n1)%nat (k mod n1)%nat))
      by (intros; ring).
    rewrite (hatd_weighted2 n0 n1 x (fun _ _ => 1)).
    rewrite (rsum_ext n0 _ (fun a => hat n0 (x 0%nat) a)).
    + apply hat_sum; exact H0.
    + intros a _. rewrite (rsum_ext n1 _ (fun b => hat n0 (x 0%nat) a * hat n1 (x 1%nat) b)) by (intros; ring).
      rewrite rsum_scal, hat_sum by exact H1. ring.
Qed.

(** The [c]-th index of the flat index [k]. *)
Definition coord (dims : list nat) (c k : nat) : nat := nth c (components dims k) 0%nat.

Lemma coord_1 : forall n0 k, coord [n0] 0 k = k.
Proof. intros. unfold coord. cbn. apply Nat.div_1_r. Qed.
Lemma coord_2 : forall n0 n1 k, coord [n0; n1] 0 k = (k / n1)%nat /\ coord [n0; n1] 1 k = (k mod n1)%nat.
Proof. intros. unfold coord. cbn. rewrite Nat.mul_1_r, Nat.div_1_r. split; reflexivity. Qed.

Lemma hatd_mean : forall dims x c, good_dims dims -> (c < length dims)%nat ->
    rsum (prodn dims) (fun k => hatd dims x k * (INR (coord dims c k) / (INR (nth c dims 0%nat) - 1))) = clamp01 (x c).
Proof.
  intros dims x c Hd Hc. destruct (good_dims_inv _ Hd) as [(n0 & -> & H)|(n0 & n1 & -> & H0 & H1)]; cbn [length] in Hc.
  - assert (c = 0%nat) as -> by lia. cbn [prodn nth]. rewrite Nat.mul_1_r. cbn [hatd].
    rewrite <- (hat_mean n0 (x 0%nat) H). apply rsum_ext. intros k _. rewrite coord_1. reflexivity.
  - cbn [prodn]. rewrite Nat.mul_1_r. destruct c as [|[|c]]; [| |lia]; cbn [nth].
    + rewrite (rsum_ext _ _ (fun k => hatd [n0; n1] x k * (fun a _ => INR a / (INR n0 - 1)) (k / n1)%nat (k mod n1)%nat))
        by (intros k _; destruct (coord_2 n0 n1 k) as [-> _]; reflexivity).
      rewrite (hatd_weighted2 n0 n1 x (fun a _ => INR a / (INR n0 - 1))). rewrite <- (hat_mean n0 (x 0%nat) H0). apply rsum_ext. intros a _.
      rewrite (rsum_ext n1 _ (fun b => hat n0 (x 0%nat) a * (INR a / (INR n0 - 1)) * hat n1 (x 1%nat) b)) by (intros; ring).
      rewrite rsum_scal, hat_sum by exact H1. ring.
    + rewrite (rsum_ext _ _ (fun k => hatd [n0; n1] x k * (fun _ b => INR b / (INR n1 - 1)) (k / n1)%nat (k mod n1)%nat))
        by (intros k _; destruct (coord_2 n0 n1 k) as [_ ->]; reflexivity).
      rewrite (hatd_weighted2 n0 n1 x (fun _ b => INR b / (INR n1 - 1))).
      rewrite (rsum_ext n0 _ (fun a => clamp01 (x 1%nat) * hat n0 (x 0%nat) a)).
      * rewrite rsum_scal, hat_sum by exact H0. ring.
      * intros a _. rewrite <- (hat_mean n1 (x 1%nat) H1). rewrite <- rsum_scal_r. apply rsum_ext. intros; ring.
Qed.

Lemma hatd_near : forall dims x c k, good_dims dims -> (c < length dims)%nat -> hatd dims x k <> 0 ->
    Rabs (INR (coord dims c k) / (INR (nth c dims 0%nat) - 1) - clamp01 (x c)) < 1 / (INR (nth c dims 0%nat) - 1).
Proof.
  intros dims x c k Hd Hc Hk. destruct (good_dims_inv _ Hd) as [(n0 & -> & H)|(n0 & n1 & -> & H0 & H1)]; cbn [length] in Hc.
  - assert (c = 0%nat) as -> by lia. rewrite coord_1. cbn [nth]. apply hat_near; assumption.
  - cbn [hatd] in Hk. destruct (coord_2 n0 n1 k) as [E0 E1]. destruct c as [|[|c]]; [| |lia]; cbn [nth].
    + rewrite E0. apply hat_near; [exact H0|]. intros E. apply Hk. rewrite E. ring.
    + rewrite E1. apply hat_near; [exact H1|]. intros E. apply Hk. rewrite E. ring.
Qed.

(** Spreading mass, stated on the difference of the arrays. *)
Lemma spread_spec : forall dims N A x w, good_dims dims ->
    exists A', trembling_hand dims N A x w = Ok A' /\
      forall n, (n < N)%nat ->
        rsum (prodn dims) (fun k => A' n k - A n k) = w /\
        (0 <= w -> forall k, A n k <= A' n k) /\
        (forall c k, (c < length dims)%nat -> A' n k <> A n k ->
           Rabs (INR (nth c (components dims k) 0%nat) / (INR (nth c dims 0%nat) - 1) - Rmin (Rmax (x n c) 0) 1)
           < 1 / (INR (nth c dims 0%nat) - 1)) /\
        (forall c, (c < length dims)%nat ->
           rsum (prodn dims) (fun k => (A' n k - A n k) * (INR (nth c (components dims k) 0%nat) / (INR (nth c dims 0%nat) - 1)))
           = w * Rmin (Rmax (x n c) 0) 1).
Proof.
  intros dims N A x w Hd. destruct (hand_spec dims N A x w Hd) as (A' & E & HA). exists A'. split; [exact E|].
  intros n Hn. assert (HD : forall k, A' n k = A n k + w * hatd dims (x n) k).
  { intros k. rewrite HA. destruct (Nat.ltb_spec n N); [reflexivity|lia]. }
  split; [|split; [|split]].
  - rewrite (rsum_ext _ _ (fun k => w * hatd dims (x n) k)) by (intros k _; rewrite HD; ring).
    rewrite rsum_scal, hatd_sum by exact Hd. ring.
  - intros Hw k. rewrite HD. pose proof (Rmult_le_pos _ _ Hw (hatd_nonneg dims (x n) k Hd)). lra.
  - intros c k Hc Hk. apply hatd_near; [exact Hd|exact Hc|]. intros E0. apply Hk. rewrite HD, E0. ring.
  - intros c Hc. change (Rmin (Rmax (x n c) 0) 1) with (clamp01 (x n c)). rewrite <- (hatd_mean dims (x n) c Hd Hc). rewrite <- rsum_scal. apply rsum_ext. intros k _. rewrite HD.
    unfold coord. ring.
Qed.

(** ** Transition matrices *)

Lemma flat_axis_false : forall grid,
    (forall c, (c < length (u_min grid))%nat -> nth c (u_min grid) 0 < nth c (u_max grid) 0) ->
    length (u_max grid) = length (u_min grid) -> flat_axis grid = false.
Proof.
  intros grid H L. unfold flat_axis. destruct (existsb _ _) eqn:E; [|reflexivity]. apply existsb_exists in E.
  destruct E as ([a b] & Hin & E). apply (In_nth _ _ (0, 0)) in Hin. destruct Hin as (c & Hc & En).
  rewrite combine_length, L, Nat.min_id in Hc. rewrite combine_nth in En by (symmetry; exact L). injection En as <- <-.
  specialize (H c Hc). cbn [fst snd] in E. destruct (Req_EM_T _ _); [lra|discriminate].
Qed.

Section Ergodic.
  Variable g : list R -> list R -> list R -> list R -> list R.

  Lemma loop_ok : forall {A} n (body : nat -> A -> res A) s (Q : nat -> A -> Prop),
      Q 0%nat s -> (forall k x, (k < n)%nat -> Q k x -> exists y, body k x = Ok y /\ Q (S k) y) ->
      exists r, for_range_res n body s = Ok r /\ Q n r.
  Proof.
    intros A n body s Q H0 HS. induction n as [|n IH]; [exists s; split; [reflexivity|exact H0]|].
    destruct IH as (r & E & Hr); [intros; apply HS; [lia|assumption]|]. cbn [for_range_res]. rewrite E. cbn [bind].
    apply HS; [lia|exact Hr].
  Qed.

  (** Next state from exogenous node [i], endogenous node [n] and successor [j]. *)
  Definition successor (exo : nat -> list R) (dr : nat -> list R -> list R) (grid : ugrid) (dp : dprocess) (i j n : nat) : list R :=
    g (exo i) (row (u_nodes grid) n) (dr i (row (u_nodes grid) n)) (dp_node dp i j).

  Lemma ergodic_Pi_spec : forall N_m exo dr grid dp,
      good_dims (u_n grid) -> flat_axis grid = false ->
      (forall i, (i < N_m)%nat -> dp_n dp i = N_m) ->
      exists Pi, ergodic_Pi g N_m exo dr grid dp = Ok Pi /\
        forall i j n k, (i < N_m)%nat -> (j < N_m)%nat -> (n < nrow (u_nodes grid))%nat ->
          Pi i j n k = dp_weight dp i j * hatd (u_n grid) (renormalize grid (successor exo dr grid dp i j n)) k.
  Proof.
    intros N_m exo dr grid dp Hd Hf Hn. unfold ergodic_Pi. rewrite Hf.
    set (V := fun i j n k => if Nat.ltb n (nrow (u_nodes grid))
        then dp_weight dp i j * hatd (u_n grid) (renormalize grid (successor exo dr grid dp i j n)) k else 0).
    match goal with |- exists Pi, for_range_res _ ?body ?s = _ /\ _ =>
      destruct (loop_ok N_m body s (fun m P => forall i j n k, P i j n k
         = if (Nat.ltb i m && Nat.ltb j N_m)%bool then V i j n k else 0)) as (Pi & E & HP)
    end.
    - intros; reflexivity.
    - intros m P Hm HP. rewrite (Hn m Hm).
      match goal with |- exists y, for_range_res _ ?body ?s = _ /\ _ =>
        destruct (loop_ok N_m body s (fun l Q => forall i j n k, Q i j n k
           = if (Nat.ltb i m && Nat.ltb j N_m)%bool then V i j n k
             else if (Nat.eqb i m && Nat.ltb j l)%bool then V i j n k else 0)) as (Q & EQ & HQ)
      end.
      + intros i j n k. rewrite HP. destruct (Nat.ltb_spec j 0); [lia|]. rewrite andb_false_r. reflexivity.
      + intros l Q Hl HQ. destruct (Nat.leb_spec N_m l); [lia|].
        match goal with |- exists y, bind (trembling_hand ?a ?b ?c ?d ?e) _ = _ /\ _ =>
          destruct (hand_spec a b c d e Hd) as (A' & EA & HA) end.
        rewrite EA. cbn [bind]. eexists. split; [reflexivity|]. intros i j n k. cbv beta.
        destruct (Nat.eqb_spec i m) as [->|Hi]; cbn [andb].
        * destruct (Nat.eqb_spec j l) as [->|Hj]; cbn [andb].
          -- rewrite HA, HQ. rewrite Nat.ltb_irrefl. cbn [andb]. rewrite Nat.eqb_refl. rewrite Nat.ltb_irrefl.
             cbn [andb]. destruct (Nat.ltb_spec l (S l)); [|lia]. unfold V.
             destruct (Nat.ltb n _); [|ring]. unfold successor. rewrite Rplus_0_l. reflexivity.
          -- rewrite HQ. rewrite Nat.ltb_irrefl, Nat.eqb_refl. cbn [andb].
             destruct (Nat.ltb_spec j l), (Nat.ltb_spec j (S l)); try lia; reflexivity.
        * rewrite HQ. destruct (Nat.eqb_spec i m); [contradiction|]. reflexivity.
      + exists Q. split; [exact EQ|]. intros i j n k. rewrite HQ.
        destruct (Nat.eqb_spec i m) as [->|]; [rewrite Nat.ltb_irrefl; cbn [andb]; destruct (Nat.ltb_spec m (S m)); [|lia]; reflexivity|].
        destruct (Nat.ltb_spec i m), (Nat.ltb_spec i (S m)); try lia; cbn [andb]; [|reflexivity].
        destruct (Nat.ltb j N_m); reflexivity.
    - exists Pi. split; [exact E|]. intros i j n k Hi Hj Hnn. rewrite HP.
      destruct (Nat.ltb_spec i N_m); [|lia]. destruct (Nat.ltb_spec j N_m); [|lia]. cbn [andb]. unfold V.
      destruct (Nat.ltb_spec n (nrow (u_nodes grid))); [|lia]. reflexivity.
  Qed.

  Lemma ergodic_iid_spec : forall m dr grid dp,
      good_dims (u_n grid) -> flat_axis grid = false ->
      exists Pi, ergodic_iid_Pi g m dr grid dp = Ok Pi /\
        forall n k, (n < nrow (u_nodes grid))%nat ->
          Pi n k = rsum (dp_n dp 0) (fun j => dp_weight dp 0 j
             * hatd (u_n grid) (renormalize grid (successor (fun _ => m) (fun _ => dr) grid dp 0 j n)) k).
  Proof.
    intros m dr grid dp Hd Hf. unfold ergodic_iid_Pi. rewrite Hf.
    match goal with |- exists Pi, for_range_res _ ?body ?s = _ /\ _ =>
      destruct (loop_ok (dp_n dp 0) body s (fun l P => forall n k, (n < nrow (u_nodes grid))%nat ->
          P n k = rsum l (fun j => dp_weight dp 0 j
             * hatd (u_n grid) (renormalize grid (successor (fun _ => m) (fun _ => dr) grid dp 0 j n)) k))) as (Pi & E & HP)
    end.
    - reflexivity.
    - intros l P Hl HP. match goal with |- exists y, trembling_hand ?a ?b ?c ?d ?e = _ /\ _ =>
          destruct (hand_spec a b c d e Hd) as (A' & EA & HA) end.
      exists A'. split; [exact EA|]. intros n k Hnn. rewrite HA, HP by exact Hnn. cbn [rsum].
      destruct (Nat.ltb_spec n (nrow (u_nodes grid))); [|lia]. reflexivity.
    - exists Pi. split; [exact E|exact HP].
  Qed.
End Ergodic.

(** Nodes of a uniform grid by their flat index. *)
Lemma components_valid : forall dims k, Forall (fun n => 1 <= n)%nat dims -> (k < prodn dims)%nat ->
    valid_index dims (components dims k) /\ rank dims (components dims k) = k.
Proof.
  assert (HP : forall dims, size_prod dims = prodn dims) by (induction dims as [|a l IH]; simpl; congruence).
  induction dims as [|d dims IH]; intros k Hf Hk; cbn [components rank prodn] in *.
  - split; [constructor|lia].
  - inversion Hf as [|? ? Hd Hf']; subst. rewrite HP.
    assert (Hp : (1 <= prodn dims)%nat).
    { clear -Hf'. induction Hf'; cbn [prodn]; [lia|]. nia. }
    destruct (IH (k mod prodn dims)%nat Hf' ltac:(apply Nat.mod_upper_bound; lia)) as [A B]. split.
    + constructor; [apply Nat.div_lt_upper_bound; lia|exact A].
    + rewrite B. rewrite Nat.mul_comm. symmetry. apply Nat.div_mod. lia.
Qed.

Lemma uniform_node : forall grid k c,
    u_min grid <> [] -> length (u_max grid) = length (u_min grid) -> length (u_n grid) = length (u_min grid) ->
    Forall (fun n => 2 <= n)%nat (u_n grid) -> uniform_grid (u_min grid) (u_max grid) (u_n grid) = Ok grid ->
    nrow (u_nodes grid) = prodn (u_n grid) /\
    ((k < prodn (u_n grid))%nat -> (c < length (u_n grid))%nat ->
     mget (u_nodes grid) k c = nth c (u_min grid) 0
       + INR (coord (u_n grid) c k) / (INR (nth c (u_n grid) 0%nat) - 1) * (nth c (u_max grid) 0 - nth c (u_min grid) 0)).
Proof.
  intros grid k c H0 H1 H2 H3 HG.
  assert (H4 : Forall (fun n => 1 <= n)%nat (u_n grid)) by (revert H3; apply Forall_impl; intros; lia).
  destruct (uniform_grid_spec (u_min grid) (u_max grid) (u_n grid) H0 H1 H2 H4) as (gr & axes & E & _ & _ & _ & A & _ & La & Hax & Hen).
  rewrite HG in E. injection E as <-. split; [exact A|]. intros Hk Hc.
  assert (Hm : map (@length R) axes = u_n grid).
  { apply (nth_ext _ _ 0%nat 0%nat); [rewrite map_length; congruence|]. intros i Hi. rewrite map_length in Hi.
    change 0%nat with (length (@nil R)) at 1. rewrite map_nth. apply Hax. rewrite <- La. exact Hi. }
  destruct (components_valid (u_n grid) k H4 Hk) as [Hv Hr].
  specialize (Hen (components (u_n grid) k)). rewrite Hm in Hen. specialize (Hen Hv c ltac:(lia)). rewrite Hr in Hen.
  rewrite Hen. destruct (Hax c ltac:(lia)) as [[_ Ha] _].
  assert (Hcn : (2 <= nth c (u_n grid) 0)%nat).
  { rewrite Forall_forall in H3. apply H3. apply nth_In. exact Hc. }
  assert (Hci : (nth c (components (u_n grid) k) 0 < nth c (u_n grid) 0)%nat).
  { clear -Hv Hc. revert c Hc. unfold valid_index in Hv. generalize dependent (components (u_n grid) k).
    intros l Hv. induction Hv; intros c Hc; [simpl in Hc; lia|].
    destruct c; simpl in *; [assumption|]. apply IHHv. lia. }
  rewrite Ha by lia. unfold coord. rewrite minus_INR by lia. simpl INR. ring.
Qed.

Lemma wf_grid_facts : forall grid, wf_grid grid ->
    good_dims (u_n grid) /\ flat_axis grid = false /\ nrow (u_nodes grid) = prodn (u_n grid) /\
    (0 < nrow (u_nodes grid))%nat /\
    (forall k c, (k < nrow (u_nodes grid))%nat -> (c < length (u_min grid))%nat ->
     mget (u_nodes grid) k c = nth c (u_min grid) 0
       + INR (coord (u_n grid) c k) / (INR (nth c (u_n grid) 0%nat) - 1) * (nth c (u_max grid) 0 - nth c (u_min grid) 0)).
Proof.
  intros grid (HG & Hl & H1 & H2 & H3 & H4).
  assert (Hne : u_min grid <> []) by (intros E; rewrite E in Hl; simpl in Hl; lia).
  destruct (uniform_node grid 0 0 Hne H1 H2 H3 HG) as [Hr _].
  split; [split; [rewrite H2; exact Hl|exact H3]|]. split; [apply flat_axis_false; assumption|]. split; [exact Hr|].
  split.
  - rewrite Hr. clear -H3. induction H3; cbn [prodn]; [lia|]. nia.
  - intros k c Hk Hc. rewrite Hr in Hk. apply (uniform_node grid k c Hne H1 H2 H3 HG); [exact Hk|lia].
Qed.

Lemma hatd_node_mean : forall grid S c, wf_grid grid -> (c < length (u_min grid))%nat ->
    nth c (u_min grid) 0 <= nth c S 0 <= nth c (u_max grid) 0 ->
    rsum (nrow (u_nodes grid)) (fun k => hatd (u_n grid) (renormalize grid S) k * mget (u_nodes grid) k c) = nth c S 0.
Proof.
  intros grid S c HG Hc HS. destruct (wf_grid_facts grid HG) as (Hd & _ & Hr & _ & Hn).
  destruct HG as (_ & _ & H1 & H2 & _ & H4). specialize (H4 c Hc).
  rewrite (rsum_ext _ _ (fun k => nth c (u_min grid) 0 * hatd (u_n grid) (renormalize grid S) k
      + (nth c (u_max grid) 0 - nth c (u_min grid) 0)
        * (hatd (u_n grid) (renormalize grid S) k * (INR (coord (u_n grid) c k) / (INR (nth c (u_n grid) 0%nat) - 1)))))
    by (intros k Hk; rewrite Hn by assumption; ring).
  rewrite rsum_plus, !rsum_scal, Hr, hatd_sum by exact Hd. rewrite hatd_mean by (try exact Hd; lia).
  assert (E : renormalize grid S c * (nth c (u_max grid) 0 - nth c (u_min grid) 0) = nth c S 0 - nth c (u_min grid) 0).
  { unfold renormalize. field. lra. }
  rewrite clamp01_id; [lra|]. split.
  - apply Rmult_le_reg_r with (nth c (u_max grid) 0 - nth c (u_min grid) 0); lra.
  - apply Rmult_le_reg_r with (nth c (u_max grid) 0 - nth c (u_min grid) 0); lra.
Qed.

Lemma flat_lt : forall i n N M, (i < N)%nat -> (n < M)%nat -> (i * M + n < N * M)%nat.
Proof. intros. nia. Qed.

Lemma ergodic_matrix_spec : forall g N_m exo dr grid dp,
    wf_grid grid -> (forall i, (i < N_m)%nat -> dp_n dp i = N_m) ->
    (forall i j, (i < N_m)%nat -> (j < N_m)%nat -> 0 <= dp_weight dp i j) ->
    (forall i, (i < N_m)%nat -> rsum N_m (dp_weight dp i) = 1) ->
    let N_s := nrow (u_nodes grid) in
    exists Pi, ergodic_matrix g N_m exo dr grid dp = Ok Pi /\
      stochastic (N_m * N_s) Pi /\
      (forall i j n, (i < N_m)%nat -> (j < N_m)%nat -> (n < N_s)%nat ->
         rsum N_s (fun k => mget Pi (i * N_s + n) (j * N_s + k)) = dp_weight dp i j) /\
      (forall i j n c, (i < N_m)%nat -> (j < N_m)%nat -> (n < N_s)%nat -> (c < length (u_min grid))%nat ->
         let s := row (u_nodes grid) n in
         let s' := g (exo i) s (dr i s) (dp_node dp i j) in
         nth c (u_min grid) 0 <= nth c s' 0 <= nth c (u_max grid) 0 ->
         rsum N_s (fun k => mget Pi (i * N_s + n) (j * N_s + k) * mget (u_nodes grid) k c)
         = dp_weight dp i j * nth c s' 0).
Proof.
  intros g N_m exo dr grid dp HG Hn Hw0 Hw1 N_s.
  destruct (wf_grid_facts grid HG) as (Hd & Hf & Hr & Hpos & Hnode).
  destruct (ergodic_Pi_spec g N_m exo dr grid dp Hd Hf Hn) as (Pi & E & HP).
  unfold ergodic_matrix. rewrite E. cbn [bind]. eexists. split; [reflexivity|].
  assert (HM : forall i j n k, (i < N_m)%nat -> (j < N_m)%nat -> (n < N_s)%nat -> (k < N_s)%nat ->
     mget (flatten_Pi N_m N_s Pi) (i * N_s + n) (j * N_s + k)
     = dp_weight dp i j * hatd (u_n grid) (renormalize grid (successor g exo dr grid dp i j n)) k).
  { intros i j n k Hi Hj Hnn Hk. unfold flatten_Pi. cbn [mget].
    destruct (divmod_pair i n N_s Hnn) as [-> ->]. destruct (divmod_pair j k N_s Hk) as [-> ->].
    apply HP; assumption. }
  assert (HS : forall i j n, (i < N_m)%nat -> (j < N_m)%nat -> (n < N_s)%nat ->
         rsum N_s (fun k => mget (flatten_Pi N_m N_s Pi) (i * N_s + n) (j * N_s + k)) = dp_weight dp i j).
  { intros i j n Hi Hj Hnn. rewrite (rsum_ext _ _ _ (fun k Hk => HM i j n k Hi Hj Hnn Hk)). rewrite rsum_scal.
    unfold N_s at 1. rewrite Hr, hatd_sum by exact Hd. ring. }
  split; [|split; [exact HS|]].
  - split; [reflexivity|]. split; [reflexivity|].
    assert (HD : forall a, (a < N_m * N_s)%nat -> (a / N_s < N_m)%nat /\ (a mod N_s < N_s)%nat /\ a = (a / N_s * N_s + a mod N_s)%nat).
    { intros a Ha. split; [apply Nat.div_lt_upper_bound; lia|]. split; [apply Nat.mod_upper_bound; lia|].
      rewrite Nat.mul_comm. apply Nat.div_mod; lia. }
    split.
    + intros a b Ha Hb. destruct (HD a Ha) as (A1 & A2 & A3). destruct (HD b Hb) as (B1 & B2 & B3).
      rewrite A3, B3, HM by assumption. apply Rmult_le_pos; [apply Hw0; assumption|apply hatd_nonneg; exact Hd].
    + intros a Ha. destruct (HD a Ha) as (A1 & A2 & A3). rewrite A3.
      transitivity (rsum N_m (fun j => rsum N_s (fun k =>
         mget (flatten_Pi N_m N_s Pi) (a / N_s * N_s + a mod N_s) (j * N_s + k)))).
      * rewrite <- (rsum_prod N_m N_s (fun j k => mget (flatten_Pi N_m N_s Pi) (a / N_s * N_s + a mod N_s) (j * N_s + k))).
        apply rsum_ext. intros b Hb. destruct (HD b Hb) as (_ & _ & B3). rewrite B3 at 1. reflexivity.
      * rewrite <- (Hw1 (a / N_s)%nat A1). apply rsum_ext. intros j Hj. apply HS; assumption.
  - intros i j n c Hi Hj Hnn Hc Hs.
    rewrite (rsum_ext _ _ (fun k => dp_weight dp i j
      * (hatd (u_n grid) (renormalize grid (successor g exo dr grid dp i j n)) k * mget (u_nodes grid) k c)))
      by (intros k Hk; rewrite HM by assumption; ring).
    rewrite rsum_scal. f_equal. apply hatd_node_mean; assumption.
Qed.

Lemma ergodic_matrix_iid_spec : forall g m dr grid dp,
    wf_grid grid -> (forall j, (j < dp_n dp 0)%nat -> 0 <= dp_weight dp 0 j) ->
    rsum (dp_n dp 0) (dp_weight dp 0) = 1 ->
    let N_s := nrow (u_nodes grid) in
    exists Pi, ergodic_matrix_iid g m dr grid dp = Ok Pi /\
      stochastic N_s Pi /\
      (forall n c, (n < N_s)%nat -> (c < length (u_min grid))%nat ->
         let s := row (u_nodes grid) n in
         let s' j := g m s (dr s) (dp_node dp 0 j) in
         (forall j, (j < dp_n dp 0)%nat -> nth c (u_min grid) 0 <= nth c (s' j) 0 <= nth c (u_max grid) 0) ->
         rsum N_s (fun k => mget Pi n k * mget (u_nodes grid) k c)
         = rsum (dp_n dp 0) (fun j => dp_weight dp 0 j * nth c (s' j) 0)).
Proof.
  intros g m dr grid dp HG Hw0 Hw1 N_s.
  destruct (wf_grid_facts grid HG) as (Hd & Hf & Hr & Hpos & Hnode).
  destruct (ergodic_iid_spec g m dr grid dp Hd Hf) as (Pi & E & HP).
  unfold ergodic_matrix_iid. rewrite E. cbn [bind]. eexists. split; [reflexivity|]. cbn [mget].
  split.
  - split; [reflexivity|]. split; [reflexivity|]. cbn [mget]. split.
    + intros a b Ha Hb. rewrite HP by exact Ha. apply rsum_nonneg. intros j Hj.
      apply Rmult_le_pos; [apply Hw0; exact Hj|apply hatd_nonneg; exact Hd].
    + intros a Ha. rewrite (rsum_ext _ _ _ (fun k _ => HP a k Ha)). rewrite rsum_swap. rewrite <- Hw1.
      apply rsum_ext. intros j Hj. rewrite rsum_scal. unfold N_s. rewrite Hr, hatd_sum by exact Hd. ring.
  - intros n c Hnn Hc Hs.
    rewrite (rsum_ext _ _ (fun k => rsum (dp_n dp 0) (fun j => dp_weight dp 0 j
      * (hatd (u_n grid) (renormalize grid (successor g (fun _ => m) (fun _ => dr) grid dp 0 j n)) k * mget (u_nodes grid) k c))))
      by (intros k Hk; rewrite HP by exact Hnn; rewrite <- rsum_scal_r; apply rsum_ext; intros; ring).
    rewrite rsum_swap. apply rsum_ext. intros j Hj. rewrite rsum_scal. f_equal.
    apply hatd_node_mean; [exact HG|exact Hc|]. apply Hs; exact Hj.
Qed.

(** ** Stationary laws *)

Lemma stationary_of_system : forall N Pi mu, (0 < N)%nat -> stochastic N Pi ->
    (forall i, (i < N)%nat -> rsum N (fun j => ergodic_A N Pi i j * mu j) = ergodic_B N i) ->
    rsum N mu = 1 /\ stationary N Pi mu.
Proof.
  intros N Pi mu HN (_ & _ & _ & Hone) H.
  assert (H1 : rsum N mu = 1).
  { specialize (H (N - 1)%nat ltac:(lia)). unfold ergodic_A, ergodic_B in H. rewrite Nat.eqb_refl in H. rewrite <- H.
    apply rsum_ext. intros; ring. }
  split; [exact H1|].
  assert (HI : forall j, (j < N)%nat -> j <> (N - 1)%nat -> rsum N (fun i => mu i * mget Pi i j) = mu j).
  { intros j Hj Hne. specialize (H j Hj). unfold ergodic_A, ergodic_B in H. destruct (Nat.eqb_spec j (N - 1)); [contradiction|].
    rewrite (rsum_ext _ _ (fun i => mu i * mget Pi i j - (if Nat.eqb i j then mu i else 0))) in H
      by (intros i _; rewrite (Nat.eqb_sym j i); destruct (Nat.eqb i j); ring).
    rewrite rsum_minus, rsum_delta in H by exact Hj. lra. }
  intros j Hj. destruct (Nat.eq_dec j (N - 1)) as [->|Hne]; [|apply HI; assumption].
  assert (HT : rsum N (fun j => rsum N (fun i => mu i * mget Pi i j)) = rsum N mu).
  { rewrite rsum_swap. apply rsum_ext. intros i Hi. rewrite rsum_scal, Hone by exact Hi. ring. }
  destruct N as [|N]; [lia|]. cbn [Nat.sub] in *. rewrite Nat.sub_0_r in *. cbn [rsum] in HT |- *.
  rewrite (rsum_ext N _ mu) in HT by (intros i Hi; apply (HI i); lia). lra.
Qed.

Lemma nonneg_of_unique : forall N Pi mu, (0 < N)%nat -> stochastic N Pi ->
    (forall i, (i < N)%nat -> rsum N (fun j => ergodic_A N Pi i j * mu j) = ergodic_B N i) ->
    (forall nu, (forall i, (i < N)%nat -> rsum N (fun j => ergodic_A N Pi i j * nu j) = ergodic_B N i) ->
       forall i, (i < N)%nat -> nu i = mu i) ->
    forall i, (i < N)%nat -> 0 <= mu i.
Proof.
  intros N Pi mu HN HPi H HU. destruct (stationary_of_system N Pi mu HN HPi H) as [H1 HS].
  destruct HPi as (_ & _ & Hpos & Hone).
  set (p := fun i => Rabs (mu i)).
  assert (Hge : forall j, (j < N)%nat -> 0 <= rsum N (fun i => p i * mget Pi i j) - p j).
  { intros j Hj. unfold p at 2. rewrite <- (HS j Hj). pose proof (rsum_abs N (fun i => mu i * mget Pi i j)) as Q. cbv beta in Q.
    rewrite (rsum_ext N (fun i => Rabs (mu i * mget Pi i j)) (fun i => p i * mget Pi i j)) in Q.
    - lra.
    - intros i Hi. unfold p. rewrite Rabs_mult, (Rabs_pos_eq (mget Pi i j)) by (apply Hpos; assumption). reflexivity. }
  assert (HT : rsum N (fun j => rsum N (fun i => p i * mget Pi i j) - p j) = 0).
  { rewrite rsum_minus, rsum_swap. rewrite (rsum_ext N _ p); [lra|].
    intros i Hi. rewrite rsum_scal, Hone by exact Hi. ring. }
  assert (Hst : forall j, (j < N)%nat -> rsum N (fun i => p i * mget Pi i j) = p j).
  { intros j Hj. pose proof (rsum_nonneg_0 N _ Hge HT j Hj). cbv beta in H0. lra. }
  set (s := rsum N p).
  assert (Hs : 1 <= s).
  { unfold s. pose proof (rsum_abs N mu) as Q. rewrite H1, Rabs_R1 in Q. exact Q. }
  assert (HQ : forall i, (i < N)%nat -> p i / s = mu i).
  { apply HU. intros i Hi. unfold ergodic_A, ergodic_B. destruct (Nat.eqb_spec i (N - 1)) as [->|Hne].
    - rewrite (rsum_ext _ _ (fun j => p j * / s)) by (intros; unfold Rdiv; ring). rewrite rsum_scal_r. fold s. field. lra.
    - rewrite (rsum_ext _ _ (fun j => / s * (p j * mget Pi j i - (if Nat.eqb j i then p j else 0))))
        by (intros j _; rewrite (Nat.eqb_sym i j); unfold Rdiv; destruct (Nat.eqb j i); ring).
      rewrite rsum_scal, rsum_minus, rsum_delta, Hst by exact Hi. ring. }
  intros i Hi. rewrite <- HQ by exact Hi. apply Rmult_le_pos; [apply Rabs_pos|]. left. apply Rinv_0_lt_compat. lra.
Qed.

Lemma ergodic_law : forall g solve N_m exo dr grid dp Pi mu,
    exact_solver solve -> wf_grid grid -> (forall i, (i < N_m)%nat -> dp_n dp i = N_m) ->
    (forall i j, (i < N_m)%nat -> (j < N_m)%nat -> 0 <= dp_weight dp i j) ->
    (forall i, (i < N_m)%nat -> rsum N_m (dp_weight dp i) = 1) ->
    ergodic_distribution g solve N_m exo dr grid dp = Ok (Pi, mu) ->
    let N := (N_m * nrow (u_nodes grid))%nat in
    ergodic_matrix g N_m exo dr grid dp = Ok Pi /\
    stationary N Pi mu /\ rsum N mu = 1 /\ (forall i, (i < N)%nat -> 0 <= mu i).
Proof.
  intros g solve N_m exo dr grid dp Pi mu Hsol HG Hn H0 H1 E N.
  destruct (ergodic_matrix_spec g N_m exo dr grid dp HG Hn H0 H1) as (P & EP & HP & _).
  unfold ergodic_distribution in E. rewrite EP in E. cbn [bind] in E.
  destruct (Nat.eqb_spec (N_m * nrow (u_nodes grid)) 0) as [|HN]; [discriminate|]. fold N in E, HN, HP.
  destruct (solve N (ergodic_A N P) (ergodic_B N)) as [x|] eqn:ES; [|discriminate]. cbn [bind] in E. injection E as <- <-.
  destruct (Hsol _ _ _ _ ES) as [S1 S2].
  destruct (stationary_of_system N P x ltac:(lia) HP S1) as [A B].
  split; [exact EP|]. split; [exact B|]. split; [exact A|].
  apply (nonneg_of_unique N P x); [lia|exact HP|exact S1|exact S2].
Qed.

Lemma ergodic_law_iid : forall g solve m dr grid dp Pi mu,
    exact_solver solve -> wf_grid grid ->
    (forall j, (j < dp_n dp 0)%nat -> 0 <= dp_weight dp 0 j) ->
    rsum (dp_n dp 0) (dp_weight dp 0) = 1 ->
    ergodic_distribution_iid g solve m dr grid dp = Ok (Pi, mu) ->
    let N := nrow (u_nodes grid) in
    ergodic_matrix_iid g m dr grid dp = Ok Pi /\
    stationary N Pi mu /\ rsum N mu = 1 /\ (forall i, (i < N)%nat -> 0 <= mu i).
Proof.
  intros g solve m dr grid dp Pi mu Hsol HG H0 H1 E N.
  destruct (ergodic_matrix_iid_spec g m dr grid dp HG H0 H1) as (P & EP & HP & _).
  unfold ergodic_distribution_iid in E. rewrite EP in E. cbn [bind] in E.
  destruct (Nat.eqb_spec (nrow (u_nodes grid)) 0) as [|HN]; [discriminate|]. fold N in E, HN, HP.
  destruct (solve N (ergodic_A N P) (ergodic_B N)) as [x|] eqn:ES; [|discriminate]. cbn [bind] in E. injection E as <- <-.
  destruct (Hsol _ _ _ _ ES) as [S1 S2].
  destruct (stationary_of_system N P x ltac:(lia) HP S1) as [A B].
  split; [exact EP|]. split; [exact B|]. split; [exact A|].
  apply (nonneg_of_unique N P x); [lia|exact HP|exact S1|exact S2].
Qed.

Lemma ergodic_matrix_stochastic : forall g N_m exo dr grid dp,
    wf_grid grid -> (forall i, (i < N_m)%nat -> dp_n dp i = N_m) ->
    (forall i j, (i < N_m)%nat -> (j < N_m)%nat -> 0 <= dp_weight dp i j) ->
    (forall i, (i < N_m)%nat -> rsum N_m (dp_weight dp i) = 1) ->
    let N_s := nrow (u_nodes grid) in
    exists Pi, ergodic_matrix g N_m exo dr grid dp = Ok Pi /\
      stochastic (N_m * N_s) Pi /\
      (forall i j n, (i < N_m)%nat -> (j < N_m)%nat -> (n < N_s)%nat ->
         rsum N_s (fun k => mget Pi (i * N_s + n) (j * N_s + k)) = dp_weight dp i j).
Proof.
  intros g N_m exo dr grid dp H1 H2 H3 H4.
  destruct (ergodic_matrix_spec g N_m exo dr grid dp H1 H2 H3 H4) as (Pi & E & A & B & _).
  exists Pi. split; [exact E|]. split; assumption.
Qed.

Lemma ergodic_matrix_mean : forall g N_m exo dr grid dp,
    wf_grid grid -> (forall i, (i < N_m)%nat -> dp_n dp i = N_m) ->
    (forall i j, (i < N_m)%nat -> (j < N_m)%nat -> 0 <= dp_weight dp i j) ->
    (forall i, (i < N_m)%nat -> rsum N_m (dp_weight dp i) = 1) ->
    let N_s := nrow (u_nodes grid) in
    exists Pi, ergodic_matrix g N_m exo dr grid dp = Ok Pi /\
      (forall i j n c, (i < N_m)%nat -> (j < N_m)%nat -> (n < N_s)%nat -> (c < length (u_min grid))%nat ->
         let s := row (u_nodes grid) n in
         let s' := g (exo i) s (dr i s) (dp_node dp i j) in
         nth c (u_min grid) 0 <= nth c s' 0 <= nth c (u_max grid) 0 ->
         rsum N_s (fun k => mget Pi (i * N_s + n) (j * N_s + k) * mget (u_nodes grid) k c)
         = dp_weight dp i j * nth c s' 0).
Proof.
  intros g N_m exo dr grid dp H1 H2 H3 H4.
  destruct (ergodic_matrix_spec g N_m exo dr grid dp H1 H2 H3 H4) as (Pi & E & A & B & C).
  exists Pi. split; [exact E|]. exact C.
Qed.

Lemma ergodic_matrix_iid_stochastic : forall g m dr grid dp,
    wf_grid grid -> (forall j, (j < dp_n dp 0)%nat -> 0 <= dp_weight dp 0 j) ->
    rsum (dp_n dp 0) (dp_weight dp 0) = 1 ->
    exists Pi, ergodic_matrix_iid g m dr grid dp = Ok Pi /\ stochastic (nrow (u_nodes grid)) Pi.
Proof.
  intros g m dr grid dp H1 H2 H3. destruct (ergodic_matrix_iid_spec g m dr grid dp H1 H2 H3) as (Pi & E & A & _).
  exists Pi. split; assumption.
Qed.

Lemma ergodic_matrix_iid_mean : forall g m dr grid dp,
    wf_grid grid -> (forall j, (j < dp_n dp 0)%nat -> 0 <= dp_weight dp 0 j) ->
    rsum (dp_n dp 0) (dp_weight dp 0) = 1 ->
    let N_s := nrow (u_nodes grid) in
    exists Pi, ergodic_matrix_iid g m dr grid dp = Ok Pi /\
      (forall n c, (n < N_s)%nat -> (c < length (u_min grid))%nat ->
         let s := row (u_nodes grid) n in
         let s' j := g m s (dr s) (dp_node dp 0 j) in
         (forall j, (j < dp_n dp 0)%nat -> nth c (u_min grid) 0 <= nth c (s' j) 0 <= nth c (u_max grid) 0) ->
         rsum N_s (fun k => mget Pi n k * mget (u_nodes grid) k c)
         = rsum (dp_n dp 0) (fun j => dp_weight dp 0 j * nth c (s' j) 0)).
Proof.
  intros g m dr grid dp H1 H2 H3. destruct (ergodic_matrix_iid_spec g m dr grid dp H1 H2 H3) as (Pi & E & A & B).
  exists Pi. split; assumption.
Qed.

Lemma spread_errors :
  (forall dims N A x w, length dims <> 1%nat -> length dims <> 2%nat ->
     trembling_hand dims N A x w = Err (ExcGeneric "Unsupported.")) /\
  (forall dims N A x w, length dims = 1%nat \/ length dims = 2%nat -> In 1%nat dims ->
     trembling_hand dims N A x w = Err ExcZeroDiv).
Proof.
  split.
  - intros [|a [|b [|c l]]] N A x w H1 H2; try reflexivity; simpl in *; lia.
  - intros dims N A x w Hl Hin. destruct dims as [|a [|b [|c l]]]; simpl in Hl; try lia; simpl in Hin.
    + destruct Hin as [ ->|[]]. reflexivity.
    + unfold trembling_hand, trembling_hand_2d. destruct Hin as [ -> |[ -> |[]]]; cbn [Nat.eqb orb bind]; [reflexivity|].
      rewrite orb_true_r. reflexivity.
Qed.

Lemma gauss_exact_solver : exact_solver gauss_solve.
Proof.
  intros n A b x E. pose proof (gauss_solve_correct n A b) as H. rewrite E in H. destruct H as (H1 & H2 & _). split; assumption.
Qed.

(** Two nodes 0 and 1; the state is halved: from 0 to 0, from 1 to 0 or 1 equally likely. *)
Lemma ergodic_example :
  exact_solver gauss_solve /\
  exists grid Pi mu, wf_grid grid /\
    ergodic_distribution_iid (fun _ s _ _ => map (fun v => v / 2) s) gauss_solve [0] (fun _ => []) grid
      (iid_process (Equi (Mat 2 1 (fun i _ => INR i)))) = Ok (Pi, mu).
Proof.
  split; [exact gauss_exact_solver|].
  destruct (uniform_grid_spec [0] [1] [2%nat] ltac:(discriminate) eq_refl eq_refl ltac:(repeat constructor))
    as (grid & axes & E & Em & EM & En & _).
  assert (HG : wf_grid grid).
  { unfold wf_grid. rewrite Em, EM, En. repeat split; try exact E; try (left; reflexivity); try (repeat constructor).
    intros [|c] Hc; simpl in *; [lra|lia]. }
  set (g := fun (_ s _ _ : list R) => map (fun v => v / 2) s).
  set (dp := iid_process (Equi (Mat 2 1 (fun i _ => INR i)))).
  assert (Hw0 : forall j, (j < dp_n dp 0)%nat -> 0 <= dp_weight dp 0 j).
  { intros j _. cbn. lra. }
  assert (Hw1 : rsum (dp_n dp 0) (dp_weight dp 0) = 1) by (cbn; lra).
  destruct (ergodic_matrix_iid_spec g [0] (fun _ => []) grid dp HG Hw0 Hw1) as (Pi & EP & HS & HM).
  destruct (wf_grid_facts grid HG) as (_ & _ & Hr & _ & Hnode). rewrite En in Hr. cbn in Hr.
  pose proof (gauss_solve_correct 2 (ergodic_A 2 Pi) (ergodic_B 2)) as HC.
  destruct (gauss_solve 2 (ergodic_A 2 Pi) (ergodic_B 2)) as [mu|e] eqn:ES.
  - exists grid, Pi, mu. split; [exact HG|]. unfold ergodic_distribution_iid. fold g dp. rewrite EP. cbn [bind]. rewrite Hr. cbn [Nat.eqb]. rewrite ES. reflexivity.
  - exfalso. destruct HC as (z & (i & Hi & Hz) & HK).
    rewrite Hr in HS, HM, Hnode. rewrite Em in HM, Hnode. cbn [length nth] in HM, Hnode.
    assert (N0 : mget (u_nodes grid) 0 0 = 0).
    { rewrite Hnode by (clear; lia). rewrite EM, En, coord_1. cbn [nth INR].
 field. }
    assert (N1 : mget (u_nodes grid) 1 0 = 1).
    { rewrite Hnode by (clear; lia). rewrite EM, En, coord_1. cbn [nth INR].
 field. }
    assert (Hrow : forall n, row (u_nodes grid) n = [mget (u_nodes grid) n 0]).
    { intros n. unfold row. destruct (uniform_grid_spec [0] [1] [2%nat] ltac:(discriminate) eq_refl eq_refl ltac:(repeat constructor))
        as (gr & ax & E2 & _ & _ & _ & _ & Hc & _). rewrite E in E2. injection E2 as <-. rewrite Hc. reflexivity. }
    assert (HM0 := HM 0%nat 0%nat ltac:(lia) ltac:(lia)). assert (HM1 := HM 1%nat 0%nat ltac:(lia) ltac:(lia)).
    cbv zeta in HM0, HM1. rewrite Hrow in HM0, HM1. rewrite EM in HM0, HM1. unfold g in HM0, HM1.
    cbn [map nth] in HM0, HM1. rewrite N0 in HM0. rewrite N1 in HM1.
    specialize (HM0 ltac:(intros; lra)). specialize (HM1 ltac:(intros; lra)). cbn [rsum] in HM0, HM1. rewrite N0, N1 in HM0, HM1.
    change (dp_n dp 0) with 2%nat in HM0, HM1. cbn in HM0, HM1.
    destruct HS as (_ & _ & _ & HS). assert (S0 := HS 0%nat ltac:(lia)). assert (S1 := HS 1%nat ltac:(lia)).
    cbn [rsum] in S0, S1.
    assert (K0 := HK 0%nat ltac:(lia)). assert (K1 := HK 1%nat ltac:(lia)).
    unfold mat_vec, ergodic_A in K0, K1. cbn in K0, K1.
    assert (P00 : mget Pi 0 0 = 1) by lra. assert (P10 : mget Pi 1 0 = 1 / 2) by lra.
    rewrite P00, P10 in K0.
    assert (z 1%nat = 0) by lra. assert (z 0%nat = 0) by lra.
    destruct i as [|[|i]]; [contradiction|contradiction|lia].
Qed.
