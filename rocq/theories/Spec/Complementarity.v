(** Mixed complementarity problems, stated without any reference to the code. *)
From Coq Require Import Reals Arith.
From Verif.Base Require Import Ext.
Open Scope R_scope.

(** One component: [a <= x <= b]; where [x] can still increase, [f >= 0]; where it can
    still decrease, [f <= 0].  So [f = 0] inside, [f >= 0] at a lower bound and
    [f <= 0] at an upper bound. *)
Definition mcp (a b : ext) (x f : R) : Prop :=
  ext_le_l a x /\ ext_le_r x b /\ (ext_lt_r x b -> 0 <= f) /\ (ext_lt_l a x -> f <= 0).

(** All components. *)
Definition mcp_vec (n : nat) (a b : nat -> ext) (x f : nat -> R) : Prop :=
  forall i, (i < n)%nat -> mcp (a i) (b i) (x i) (f i).

(** A bound whose magnitude reaches [big] counts as infinite. *)
Definition lower_cut (big : R) (a : ext) : ext := if ext_leb a (- big) then MInf else a.
Definition upper_cut (big : R) (b : ext) : ext := if ext_geb b big then PInf else b.

(** The same conditions up to [d]: bounds violated by at most [d]; [f >= -d] unless [x] is within
    [d] of its upper bound, [f <= d] unless it is within [d] of its lower bound. *)
Definition mcp_approx (d : R) (a b : ext) (x f : R) : Prop :=
  ext_le_l a (x + d) /\ ext_le_r (x - d) b /\
  (ext_lt_r (x + d) b -> - d <= f) /\ (ext_lt_l a (x - d) -> f <= d).

(** Regular bounds: not the wrong infinity, not exactly on the threshold, ordered. *)
Definition bounds_ok (big : R) (l u : ext) : Prop :=
  l <> PInf /\ u <> MInf /\ l <> Fin (- big) /\ u <> Fin big /\
  ext_le (lower_cut big l) (upper_cut big u).

(** A component at more than [d] from every kink of the residual. *)
Definition away_from_kinks (d : R) (l u : ext) (x F : R) : Prop :=
  (match l with Fin r => d < Rabs (x - r) | MInf => True | PInf => False end) /\
  (match u with Fin s => d < Rabs (s - x) | PInf => True | MInf => False end) /\
  d < Rabs F.
