(** The linear system solved by one step of improved time iteration. *)
From Coq Require Import Reals List Arith.
From Verif.Base Require Import Prelude Sums.
Open Scope R_scope.

(** [ev p i j S l]: control l chosen at the future state S, coming from exogenous node i and reaching
    j, by the rule with values p.  It depends linearly on the values at the nodes. *)
Definition linear_rule (n_m n_im N n_x : nat) (ev : (nat -> nat -> nat -> R) -> nat -> nat -> list R -> nat -> R) : Prop :=
  forall a b p q r,
    (forall i n k, (i < n_m)%nat -> (n < N)%nat -> (k < n_x)%nat -> r i n k = a * p i n k + b * q i n k) ->
    forall i j S l, (i < n_m)%nat -> (j < n_im)%nat -> (l < n_x)%nat -> ev r i j S l = a * ev p i j S l + b * ev q i j S l.

(** [J p] at (i, n, k): effect on equation k of a change p of the rule followed in the future. *)
Definition future_effect (n_im n_x : nat) (ev : (nat -> nat -> nat -> R) -> nat -> nat -> list R -> nat -> R)
    (J : nat -> nat -> nat -> nat -> nat -> R) (S : nat -> nat -> nat -> list R) (p : nat -> nat -> nat -> R)
    (i n k : nat) : R :=
  rsum n_im (fun j => rsum n_x (fun l => J i j n k l * ev p i j (S i j n) l)).

(** [D p] at (i, n, k): effect of a change p of the current controls. *)
Definition present_effect (n_x : nat) (D : nat -> nat -> nat -> nat -> R) (p : nat -> nat -> nat -> R) (i n k : nat) : R :=
  rsum n_x (fun l => D i n k l * p i n l).

(** [p] solves the Newton system D p + J p = r, up to [e]. *)
Definition newton_system (n_m n_im N n_x : nat) ev D J S (r p e : nat -> nat -> nat -> R) : Prop :=
  forall i n k, (i < n_m)%nat -> (n < N)%nat -> (k < n_x)%nat ->
    present_effect n_x D p i n k + future_effect n_im n_x ev J S p i n k = r i n k - e i n k.
