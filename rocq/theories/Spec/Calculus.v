(** Small calculus vocabulary. *)
From Coq Require Import Reals.
Open Scope R_scope.

(** A polynomial of degree at most two in the step [h] (affine maps are the case a = 0). *)
Definition quadratic_along (g : R -> R) : Prop :=
  exists a b c, forall h, g h = c + b * h + a * h ^ 2.
