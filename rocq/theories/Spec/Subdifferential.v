(** Generalised derivatives of functions that are not differentiable everywhere. *)
From Coq Require Import Reals Arith.
From Verif.Base Require Import Sums Ext.
Open Scope R_scope.

(** Points whose first [n] coordinates differ by less than [d]. *)
Definition close (n : nat) (d : R) (x y : nat -> R) : Prop := forall i, (i < n)%nat -> Rabs (y i - x i) < d.

(** [x] moved by [h] along coordinate [j]. *)
Definition moved (x : nat -> R) (j : nat) (h : R) : nat -> R := fun k => x k + (if Nat.eqb k j then h else 0).

(** [g] is the gradient of [f] at [y]: its partial derivatives. *)
Definition gradient_at (n : nat) (f : (nat -> R) -> R) (y g : nat -> R) : Prop :=
  forall j, (j < n)%nat -> derivable_pt_lim (fun h => f (moved y j h)) 0 (g j).

(** [g] is a limit of gradients of [f] at points that tend to [x]: an element of the (B-)subdifferential at [x]. *)
Definition limit_of_gradients (n : nat) (f : (nat -> R) -> R) (x g : nat -> R) : Prop :=
  forall eps, 0 < eps -> exists y g', close n eps x y /\ gradient_at n f y g' /\
    forall j, (j < n)%nat -> Rabs (g' j - g j) < eps.

(** [F] is differentiable near [x], in every direction, with derivatives [DF] that are continuous at [x]. *)
Definition smooth_at (n : nat) (F : (nat -> R) -> nat -> R) (DF : (nat -> R) -> nat -> nat -> R) (x : nat -> R) : Prop :=
  (exists d, 0 < d /\ forall y, close n d x y -> forall v i, (i < n)%nat ->
     derivable_pt_lim (fun h => F (fun k => y k + h * v k) i) 0 (rsum n (fun k => DF y i k * v k))) /\
  (forall eps, 0 < eps -> exists d, 0 < d /\ forall y, close n d x y ->
     forall i j, (i < n)%nat -> (j < n)%nat -> Rabs (DF y i j - DF x i j) < eps).

(** Convex combinations of limits of gradients: Clarke's generalised gradient. *)
Inductive generalised_gradient (n : nat) (f : (nat -> R) -> R) (x : nat -> R) : (nat -> R) -> Prop :=
| gg_limit : forall g, limit_of_gradients n f x g -> generalised_gradient n f x g
| gg_mix : forall c g1 g2 g, 0 <= c <= 1 -> generalised_gradient n f x g1 -> generalised_gradient n f x g2 ->
    (forall j, (j < n)%nat -> g j = c * g1 j + (1 - c) * g2 j) -> generalised_gradient n f x g.

(** Zero, or of a magnitude above [d]. *)
Definition zero_or_above (d r : R) : Prop := r = 0 \/ d < Rabs r.

(** Exactly on a kink, or further than [d] from it; two bounds do not coincide. *)
Definition clear_of (d : R) (l u : ext) (x F : R) : Prop :=
  (forall r, l = Fin r -> zero_or_above d (x - r)) /\ (forall s, u = Fin s -> zero_or_above d (s - x)) /\
  zero_or_above d F /\ (forall r s, l = Fin r -> u = Fin s -> r < s).
