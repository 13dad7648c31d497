(** Vocabulary for statements on tensors. *)
From Coq Require Import Reals List Arith.
From Verif.Base Require Import Prelude Sums Nda.
Import ListNotations.
Open Scope R_scope.

(** Product of the entries C_1[j_1, b_1] ... C_k[j_k, b_k]. *)
Fixpoint entries (Cs : list nda) (js : list nat) (bs : list (list nat)) : R :=
  match Cs, js, bs with
  | C :: Cs', j :: js', b :: bs' => at_ C (j :: b) * entries Cs' js' bs'
  | _, _, _ => 1
  end.

(** [T] is M with its last axes (of sizes [ds]) contracted with the first axes of the [Cs], in order:
    T[a, b_1, ..., b_k] = sum_j M[a, j_1, ..., j_k] C_1[j_1, b_1] ... C_k[j_k, b_k]. *)
Definition contraction (M : nda) (Cs : list nda) (kept ds : list nat) (T : nda) : Prop :=
  shape T = kept ++ concat (map (fun C => skipn 1 (shape C)) Cs) /\
  forall a bs, valid a kept -> Forall2 (fun b C => valid b (skipn 1 (shape C))) bs Cs ->
    at_ T (a ++ concat bs) = msum ds (fun js => at_ M (a ++ js) * entries Cs js bs).

(** The operands fit: M has shape kept + ds, the i-th matrix has first axis of size ds_i. *)
Definition fits (M : nda) (Cs : list nda) (kept ds : list nat) : Prop :=
  shape M = kept ++ ds /\ Forall2 (fun C d => exists t, shape C = d :: t) Cs ds.

(** Number of axes named in the operation. *)
Definition axes_named (M : nda) (Cs : list nda) : nat :=
  (length (shape M) + fold_right (fun C n => (length (shape C) - 1) + n) 0 Cs)%nat.

Definition matrix_of (n m : nat) (f : nat -> nat -> R) : nda :=
  Nda [n; m] (fun idx => f (nth 0 idx 0%nat) (nth 1 idx 0%nat)).

(** C[l_1, j_1] ... C[l_d, j_d]: entry of the d-fold tensor product. *)
Fixpoint powers (C : nat -> nat -> R) (ls js : list nat) : R :=
  match ls, js with l :: ls', j :: js' => C l j * powers C ls' js' | _, _ => 1 end.

(** A X + B X [C, ..., C] + D = 0 for X of shape (n, v, ..., v), d times v. *)
Definition sylvester (n v d : nat) (A B C : nat -> nat -> R) (X D : nda) : Prop :=
  forall i js, (i < n)%nat -> valid js (repeat v d) ->
    rsum n (fun k => A i k * at_ X (k :: js))
    + rsum n (fun k => B i k * msum (repeat v d) (fun ls => at_ X (k :: ls) * powers C ls js))
    + at_ D (i :: js) = 0.

(** Taylor polynomial of order at most three in [d], component [n]; absent coefficients are zero. *)
Definition taylor (S : nat) (x0 : nat -> R) (x1 : nat -> nat -> R) (x2 : nat -> nat -> nat -> R)
           (x3 : nat -> nat -> nat -> nat -> R) (d : nat -> R) (n : nat) : R :=
  x0 n + rsum S (fun i => x1 n i * d i)
  + 1 / 2 * rsum S (fun i => rsum S (fun j => x2 n i j * d i * d j))
  + 1 / 6 * rsum S (fun i => rsum S (fun j => rsum S (fun k => x3 n i j k * d i * d j * d k))).

(** F P P + G P + H = 0. *)
Definition quadratic_root (n : nat) (F G H P : nat -> nat -> R) : Prop :=
  forall i j, (i < n)%nat -> (j < n)%nat ->
    rsum n (fun k => F i k * rsum n (fun l => P k l * P l j)) + rsum n (fun k => G i k * P k j) + H i j = 0.

(** Coefficients stored in arrays; absent ones are zero. *)
Definition order1 (cs : list nda) (n i : nat) : R := match cs with c :: _ => at_ c [n; i] | _ => 0 end.
Definition order2 (cs : list nda) (n i j : nat) : R := match cs with _ :: c :: _ => at_ c [n; i; j] | _ => 0 end.
Definition order3 (cs : list nda) (n i j k : nat) : R := match cs with _ :: _ :: c :: _ => at_ c [n; i; j; k] | _ => 0 end.

(** Arrays of shapes (X, S), (X, S, S), (X, S, S, S): one to three of them. *)
Fixpoint coefficients_fit (sh : list nat) (S : nat) (cs : list nda) : Prop :=
  match cs with [] => True | c :: r => shape c = sh ++ [S] /\ coefficients_fit (sh ++ [S]) S r end.
Definition well_formed_expansion (s x : list R) (cs : list nda) : Prop :=
  (1 <= length cs <= 3)%nat /\ coefficients_fit [length x] (length s) cs.

(** Indices selected along axis p, when there are some. *)
Fixpoint selection (axes : list nat) (inds : list (list nat)) (p : nat) : option (list nat) :=
  match axes, inds with
  | a :: axes', ind :: inds' => if Nat.eq_dec a p then Some ind else selection axes' inds' p
  | _, _ => None
  end.
