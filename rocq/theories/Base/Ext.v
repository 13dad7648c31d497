(** Extended reals (bounds that may be infinite) and IEEE-like values (with nan). *)
From Coq Require Import Reals Lra.
Open Scope R_scope.

(** A bound: minus infinity, a real, plus infinity. *)
Inductive ext : Type :=
| MInf
| Fin (r : R)
| PInf.

(** [a <= x], [x <= b], [a < x], [x < b] for a real [x] and bounds [a], [b]. *)
Definition ext_le_l (a : ext) (x : R) : Prop :=
  match a with MInf => True | Fin r => r <= x | PInf => False end.
Definition ext_le_r (x : R) (b : ext) : Prop :=
  match b with MInf => False | Fin r => x <= r | PInf => True end.
Definition ext_lt_l (a : ext) (x : R) : Prop :=
  match a with MInf => True | Fin r => r < x | PInf => False end.
Definition ext_lt_r (x : R) (b : ext) : Prop :=
  match b with MInf => False | Fin r => x < r | PInf => True end.

(** [a <= b] between bounds. *)
Definition ext_le (a b : ext) : Prop :=
  match a, b with
  | MInf, _ => True
  | _, PInf => True
  | Fin r, Fin s => r <= s
  | _, _ => False
  end.

(** Decidable tests against a real number, as numpy's [a <= c], [b >= c], [a < c],
    [b > c] on floats that may be infinite. *)
Definition ext_leb (a : ext) (c : R) : bool :=
  match a with MInf => true | Fin r => if Rle_dec r c then true else false | PInf => false end.
Definition ext_geb (b : ext) (c : R) : bool :=
  match b with MInf => false | Fin r => if Rle_dec c r then true else false | PInf => true end.
Definition ext_ltb (a : ext) (c : R) : bool :=
  match a with MInf => true | Fin r => if Rlt_dec r c then true else false | PInf => false end.
Definition ext_gtb (b : ext) (c : R) : bool :=
  match b with MInf => false | Fin r => if Rlt_dec c r then true else false | PInf => true end.

(** Floats with infinities and nan but without rounding: the arithmetic rules of
    IEEE 754 that the code runs into when a bound is infinite. *)
Inductive flt : Type :=
| NaN
| Num (r : R)
| Inf (positive : bool).

Definition flt_opp (a : flt) : flt :=
  match a with NaN => NaN | Num r => Num (- r) | Inf s => Inf (negb s) end.
Definition flt_add (a b : flt) : flt :=
  match a, b with
  | NaN, _ | _, NaN => NaN
  | Num r, Num s => Num (r + s)
  | Inf s, Num _ | Num _, Inf s => Inf s
  | Inf s, Inf t => if Bool.eqb s t then Inf s else NaN
  end.
Definition flt_sub (a b : flt) : flt := flt_add a (flt_opp b).
(** [a ** 2] *)
Definition flt_sq (a : flt) : flt :=
  match a with NaN => NaN | Num r => Num (r ^ 2) | Inf _ => Inf true end.
(** [sqrt], on squares only nonnegative values occur. *)
Definition flt_sqrt (a : flt) : flt :=
  match a with
  | NaN => NaN
  | Num r => if Rle_dec 0 r then Num (sqrt r) else NaN
  | Inf true => Inf true
  | Inf false => NaN
  end.

Definition flt_of_ext (e : ext) : flt :=
  match e with MInf => Inf false | Fin r => Num r | PInf => Inf true end.
