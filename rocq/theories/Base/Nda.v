(** numpy arrays of any rank: a shape and the entries at each multi-index (entries outside of the shape
    are junk, no statement speaks about them). *)
From Coq Require Import Reals List Arith Lia Lra.
From Verif.Base Require Import Prelude Sums.
Import ListNotations.
Open Scope R_scope.

Record nda : Type := Nda { shape : list nat; at_ : list nat -> R }.

Definition size (sh : list nat) : nat := fold_right Nat.mul 1%nat sh.

(** C-order position of a multi-index and the multi-index at a position. *)
Fixpoint ravel (sh idx : list nat) : nat :=
  match sh, idx with
  | _ :: sh', i :: idx' => (i * size sh' + ravel sh' idx')%nat
  | _, _ => 0%nat
  end.
Fixpoint unravel (sh : list nat) (k : nat) : list nat :=
  match sh with
  | [] => []
  | _ :: sh' => (k / size sh')%nat :: unravel sh' (k mod size sh')
  end.

(** [a.reshape(sh)]. *)
Definition reshape (a : nda) (sh : list nat) : res nda :=
  if Nat.eqb (size (shape a)) (size sh)
  then Ok (Nda sh (fun idx => at_ a (unravel (shape a) (ravel sh idx))))
  else Err ExcValue.

(** A multi-index inside a shape. *)
Definition valid (idx sh : list nat) : Prop := Forall2 lt idx sh.

(** Sum over all multi-indices of a shape. *)
Fixpoint msum (sh : list nat) (f : list nat -> R) : R :=
  match sh with
  | [] => f []
  | d :: sh' => rsum d (fun i => msum sh' (fun idx => f (i :: idx)))
  end.

Lemma size_pos : forall sh idx, valid idx sh -> (0 < size sh)%nat.
Proof.
  intros sh idx H. induction H as [|i d idx sh Hi H IH]; cbn; [lia|].
  fold (size sh). nia.
Qed.

Lemma ravel_lt : forall sh idx, valid idx sh -> (ravel sh idx < size sh)%nat.
Proof.
  intros sh idx H. induction H as [|i d idx sh Hi H IH]; cbn; [lia|].
  fold (size sh). nia.
Qed.

Lemma unravel_ravel : forall sh idx, valid idx sh -> unravel sh (ravel sh idx) = idx.
Proof.
  intros sh idx H. induction H as [|i d idx sh Hi H IH]; [reflexivity|].
  cbn [ravel unravel]. pose proof (ravel_lt _ _ H) as Hr.
  rewrite Nat.div_add_l by lia. rewrite (Nat.div_small (ravel sh idx)) by exact Hr. rewrite Nat.add_0_r.
  rewrite Nat.add_comm, Nat.mod_add by lia. rewrite Nat.mod_small by exact Hr. rewrite IH. reflexivity.
Qed.

Lemma unravel_valid : forall sh k, (k < size sh)%nat -> valid (unravel sh k) sh.
Proof.
  induction sh as [|d sh IH]; intros k H; cbn; [constructor|].
  cbn in H. fold (size sh) in H.
  assert (size sh <> 0)%nat by (intros E; rewrite E in H; lia).
  constructor.
  - apply Nat.div_lt_upper_bound; lia.
  - apply IH. apply Nat.mod_upper_bound. assumption.
Qed.

Lemma ravel_unravel : forall sh k, (k < size sh)%nat -> ravel sh (unravel sh k) = k.
Proof.
  induction sh as [|d sh IH]; intros k H; cbn in *; [lia|]. fold (size sh) in *.
  assert (size sh <> 0)%nat by (intros E; rewrite E in H; lia).
  rewrite IH by (apply Nat.mod_upper_bound; assumption).
  rewrite Nat.mul_comm. symmetry. apply Nat.div_mod. assumption.
Qed.

Lemma msum_ext : forall sh f g, (forall idx, valid idx sh -> f idx = g idx) -> msum sh f = msum sh g.
Proof.
  induction sh as [|d sh IH]; intros f g H; cbn; [apply H; constructor|].
  apply rsum_ext. intros i Hi. apply IH. intros idx Hx. apply H. constructor; assumption.
Qed.

Lemma msum_scal : forall sh c f, msum sh (fun idx => c * f idx) = c * msum sh f.
Proof.
  induction sh as [|d sh IH]; intros c f; cbn; [reflexivity|].
  rewrite <- rsum_scal. apply rsum_ext. intros i _. apply IH.
Qed.

Lemma msum_scal_r : forall sh c f, msum sh (fun idx => f idx * c) = msum sh f * c.
Proof.
  intros sh c f. rewrite Rmult_comm, <- msum_scal. apply msum_ext. intros. ring.
Qed.

Lemma msum_plus : forall sh f g, msum sh (fun idx => f idx + g idx) = msum sh f + msum sh g.
Proof.
  induction sh as [|d sh IH]; intros f g; cbn; [reflexivity|].
  rewrite <- rsum_plus. apply rsum_ext. intros i _. apply IH.
Qed.

Lemma rsum_msum_swap : forall n sh (f : nat -> list nat -> R),
    rsum n (fun i => msum sh (fun idx => f i idx)) = msum sh (fun idx => rsum n (fun i => f i idx)).
Proof.
  intros n sh. induction sh as [|d sh IH]; intros f; cbn; [reflexivity|].
  rewrite rsum_swap. apply rsum_ext. intros j _. apply IH.
Qed.

(** Sum over positions = sum over multi-indices. *)
Lemma rsum_unravel : forall sh f, rsum (size sh) (fun k => f (unravel sh k)) = msum sh f.
Proof.
  induction sh as [|d sh IH]; intros f; [cbn; ring|].
  cbn [msum unravel]. change (size (d :: sh)) with (d * size sh)%nat.
  rewrite (rsum_prod d (size sh) (fun i k => f (i :: unravel sh k))).
  apply rsum_ext. intros i _. apply (IH (fun idx => f (i :: idx))).
Qed.

Lemma valid_length : forall idx sh, valid idx sh -> length idx = length sh.
Proof. intros idx sh H. induction H; cbn; congruence. Qed.

Lemma valid_app : forall a b sa sb, valid a sa -> valid b sb -> valid (a ++ b) (sa ++ sb).
Proof. intros. apply Forall2_app; assumption. Qed.

Lemma size_cons : forall d s, size (d :: s) = (d * size s)%nat.
Proof. reflexivity. Qed.

Lemma size_app : forall a b, size (a ++ b) = (size a * size b)%nat.
Proof.
  induction a as [|d a IH]; intros b; cbn [app]; [cbn; lia|]. rewrite !size_cons, IH. lia.
Qed.

Lemma size_repeat : forall v d, size (repeat v d) = (v ^ d)%nat.
Proof. intros v. induction d as [|d IH]; [reflexivity|]. cbn [repeat]. rewrite size_cons, IH. reflexivity. Qed.

Lemma ravel_app : forall sa a sb b, length a = length sa ->
    ravel (sa ++ sb) (a ++ b) = (ravel sa a * size sb + ravel sb b)%nat.
Proof.
  induction sa as [|d sa IH]; intros a sb b H; destruct a as [|i a]; cbn in H; try lia; [reflexivity|].
  cbn [app ravel]. rewrite IH by lia. rewrite size_app. lia.
Qed.
