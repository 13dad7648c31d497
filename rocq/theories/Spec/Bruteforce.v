(** What product bases, sparse tensors and block Jacobians mean. *)
From Coq Require Import Reals List Arith.
From Verif.Base Require Import Prelude Arrays Sums Nda.
From Verif.Model Require Import Bruteforce.
Import ListNotations.
Open Scope R_scope.

(** Entry (idx, jdx) of the Kronecker product: product of the entries of the factors. *)
Fixpoint kron_entry (Bs : list mat) (idx jdx : list nat) : R :=
  match Bs, idx, jdx with
  | B :: Bs', i :: idx', j :: jdx' => mget B i j * kron_entry Bs' idx' jdx'
  | _, _, _ => 1
  end.

Definition square (B : mat) : Prop := ncol B = nrow B.

(** Value of a sparse tensor at a multi-index: the entries stored there, added. *)
Definition stored (t : sparse) (idx : list nat) : R :=
  lsum (map (fun e => if list_eq_dec Nat.eq_dec (fst e) idx then snd e else 0) (combine (st_inds t) (st_vals t))).

(** Every stored index lies inside of the shape and has one value. *)
Definition well_formed (t : sparse) : Prop :=
  length (st_inds t) = length (st_vals t) /\ Forall (fun idx => valid idx (st_shape t)) (st_inds t).

(** Place of (i, n, k) when the three axes are read as one. *)
Definition place (N n_x i n k : nat) : nat := ((i * N + n) * n_x + k)%nat.

(** p, L p, L (L p), ... *)
Fixpoint images {A : Type} (L : A -> A) (c : nat) (p : A) : A := match c with O => p | S c => L (images L c p) end.
