(** Words used to state what draws and simulations of random processes are. *)
From Coq Require Import String Reals List Arith.
From Verif.Base Require Import Prelude Sums Arrays Nda.
From Verif.Spec Require Import Law.
From Verif.Model Require Import Distributions Processes Sampling.
Import ListNotations.
Open Scope R_scope.

Definition every {A} (P : A -> Prop) : list A -> Prop :=
  fix all l := match l with [] => True | y :: l' => P y /\ all l' end.
Definition some {A} (P : A -> Prop) : list A -> Prop :=
  fix any l := match l with [] => False | y :: l' => P y \/ any l' end.

(** Laws numbers can be drawn from: they have a point, weights are a law, factors are such laws (but no
    Bernouilli, which has no attribute d). *)
Fixpoint drawable (x : dist) : Prop :=
  match x with
  | DEqui p => (1 <= nrow p)%nat
  | DFinite p w => vlen w = nrow p /\ is_law (nrow p) (vget w)
  | DBernouilli _ | DUNormal _ _ | DUniform _ _ => True
  | DNormal Sigma _ => (1 <= nrow Sigma)%nat
  | DProduct l => l <> [] /\ every drawable l /\ forall pi, ~ In (DBernouilli pi) l
  | DNoDraw => False
  end.

(** A multivariate normal appears in the law. *)
Fixpoint has_normal (x : dist) : Prop :=
  match x with
  | DNormal _ _ => True
  | DProduct l => some has_normal l
  | _ => False
  end.

(** [f] succeeds on each element of the list in turn, each call starting from the state of the generators
    left by the previous one. *)
Inductive each_in_turn {rng A B : Type} (f : A -> rng -> res B * rng) : list A -> rng -> list B -> rng -> Prop :=
| turn_none : forall r, each_in_turn f [] r [] r
| turn_more : forall y l r b r1 bs r2,
    f y r = (Ok b, r1) -> each_in_turn f l r1 bs r2 -> each_in_turn f (y :: l) r (b :: bs) r2.

(** A process whose simulation always raises: an AR1, a constant, an i.i.d. process without draws; without
    shocks, a VAR1; a product with such a factor, with a Bernouilli, or without factors. *)
Fixpoint cannot_simulate (stochastic : bool) (x : proc) : Prop :=
  match x with
  | PIid y _ => y = DNoDraw
  | PConstant _ | PAr1 _ _ _ => True
  | PVar1 _ => stochastic = false
  | PChain _ => False
  | PProduct l => l = [] \/ some (cannot_simulate stochastic) l \/ exists pi names, In (PIid (DBernouilli pi) names) l
  end.

(** First column of the block [i] of a list of blocks of widths [ds]. *)
Definition offset (ds : list nat) (i : nat) : nat := fold_right Nat.add 0%nat (firstn i ds).
