(** Arrays with a shape: numpy's 1-d and 2-d float arrays. *)
From Coq Require Import Reals List Arith Lia Lra.
From Verif.Base Require Import Prelude Sums.
Import ListNotations.
Open Scope R_scope.

(** A 1-d array: its length and its entries (entries past the length are junk,
    no statement speaks about them). *)
Record vec : Type := Vec { vlen : nat; vget : nat -> R }.

(** A 2-d array: shape and entries. *)
Record mat : Type := Mat { nrow : nat; ncol : nat; mget : nat -> nat -> R }.

(** Row [i] as a list of floats: [m[i, :]]. *)
Definition row (m : mat) (i : nat) : list R := map (mget m i) (seq 0 (ncol m)).

(** [np.linspace(a, b, n)], entry [i]. *)
Definition linspace (a b : R) (n i : nat) : R :=
  if Nat.eqb n 1 then a else a + INR i * ((b - a) / (INR n - 1)).

(** [np.kron] of two matrices. *)
Definition kron (a b : mat) : mat :=
  Mat (nrow a * nrow b) (ncol a * ncol b)
      (fun i j => mget a (i / nrow b) (j / ncol b) * mget b (i mod nrow b) (j mod ncol b)).

(** [np.repeat(m, k, axis=0)]. *)
Definition repeat_rows (m : mat) (k : nat) : mat :=
  Mat (nrow m * k) (ncol m) (fun i j => mget m (i / k) j).

(** [np.tile(m, (k, 1))]. *)
Definition tile_rows (m : mat) (k : nat) : mat :=
  Mat (k * nrow m) (ncol m) (fun i j => mget m (i mod nrow m) j).

(** [np.column_stack([a, b])] (raises ValueError on different row counts). *)
Definition column_stack (a b : mat) : res mat :=
  if Nat.eqb (nrow a) (nrow b)
  then Ok (Mat (nrow a) (ncol a + ncol b)
               (fun i j => if Nat.ltb j (ncol a) then mget a i j else mget b i (j - ncol a)))
  else Err ExcValue.

Lemma linspace_first : forall a b n, (1 <= n)%nat -> linspace a b n 0 = a.
Proof.
  intros a b n _. unfold linspace. destruct (Nat.eqb n 1); simpl; lra.
Qed.

Lemma linspace_last : forall a b n, (2 <= n)%nat -> linspace a b n (n - 1) = b.
Proof.
  intros a b n Hn. unfold linspace.
  destruct (Nat.eqb_spec n 1); [lia|].
  rewrite minus_INR by lia. simpl INR.
  assert (INR n - 1 <> 0).
  { apply lt_INR in Hn. simpl in Hn. lra. }
  field. assumption.
Qed.

Lemma linspace_step : forall a b n i,
    (2 <= n)%nat -> linspace a b n (S i) - linspace a b n i = (b - a) / (INR n - 1).
Proof.
  intros a b n i Hn. unfold linspace. destruct (Nat.eqb_spec n 1); [lia|].
  rewrite S_INR. ring.
Qed.

Lemma INR_pred_pos : forall n, (2 <= n)%nat -> 0 < INR n - 1.
Proof. intros n H. apply lt_INR in H. simpl in H. lra. Qed.

Lemma linspace_bounds : forall a b n i,
    a <= b -> (i < n)%nat -> a <= linspace a b n i <= b.
Proof.
  intros a b n i Hab Hi. unfold linspace. destruct (Nat.eqb_spec n 1); [lra|].
  assert (Hn : (2 <= n)%nat) by lia.
  pose proof (INR_pred_pos n Hn) as Hp.
  assert (H0 : 0 <= INR i) by apply pos_INR.
  assert (H1 : INR i <= INR n - 1).
  { apply le_INR in Hi. rewrite S_INR in Hi. lra. }
  assert (Hq : 0 <= (b - a) / (INR n - 1)).
  { apply Rmult_le_pos; [lra|]. left. now apply Rinv_0_lt_compat. }
  split.
  - assert (0 <= INR i * ((b - a) / (INR n - 1))) by (apply Rmult_le_pos; assumption). lra.
  - assert (INR i * ((b - a) / (INR n - 1)) <= (INR n - 1) * ((b - a) / (INR n - 1)))
      by (apply Rmult_le_compat_r; assumption).
    replace ((INR n - 1) * ((b - a) / (INR n - 1))) with (b - a) in H by (field; lra).
    lra.
Qed.
