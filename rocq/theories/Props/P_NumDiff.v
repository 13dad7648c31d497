(** Property theorems C27: numerical differentiation. *)
From Coq Require Import Reals List Arith.
From Verif.Base Require Import Prelude Sums.
From Verif.Model Require Import NumDiff.
From Verif.Spec Require Import LinearAlgebra Calculus.
From Verif.Proofs Require Import NumDiffProofs.
Open Scope R_scope.

(** Central differences of MyJacobian return the partial derivative exactly whenever the
    map is at most quadratic along the axis. *)
Theorem C27_MyJacobian_quadratic :
  forall eps f x i j,
    eps <> 0 ->
    quadratic_along (fun h => f (shift x j h) i) ->
    derivable_pt_lim (fun h => f (shift x j h) i) 0 (MyJacobian eps f x i j).
Proof. exact MyJacobian_quadratic. Qed.
Print Assumptions C27_MyJacobian_quadratic.

Theorem C27_MyJacobian_affine :
  forall n eps A b x i j,
    eps <> 0 -> (j < n)%nat ->
    MyJacobian eps (fun y k => mat_vec n A y k + b k) x i j = A i j.
Proof. exact MyJacobian_affine. Qed.
Print Assumptions C27_MyJacobian_affine.

(** Row-wise affine maps: SerialDifferentiableFunction. *)
Theorem C27_serial_affine :
  forall nx eps (A : nat -> nat -> nat -> R) (b : nat -> nat -> R) x n v i,
    eps <> 0 -> (i < nx)%nat ->
    serial_diff eps (fun y k w => mat_vec nx (A k) (y k) w + b k w) x n v i = A n v i.
Proof. exact serial_diff_affine. Qed.
Print Assumptions C27_serial_affine.

(** Its forward differences are off by exactly eps times the quadratic coefficient. *)
Theorem C27_serial_quadratic_error :
  forall eps (f : (nat -> nat -> R) -> nat -> nat -> R) x n v i a b c,
    eps <> 0 ->
    (forall h, f (shift_col x i h) n v = c + b * h + a * h ^ 2) ->
    f x n v = c ->
    serial_diff eps f x n v i = b + a * eps.
Proof. exact serial_diff_quadratic. Qed.
Print Assumptions C27_serial_quadratic_error.

Theorem C27_numdiff1_quadratic :
  forall dv f x0 s ind obs,
    dv <> 0 ->
    quadratic_along (fun h => f (shift_row x0 ind h) s obs) ->
    derivable_pt_lim (fun h => f (shift_row x0 ind h) s obs) 0 (numdiff1 dv f x0 s ind obs).
Proof. exact numdiff1_quadratic. Qed.
Print Assumptions C27_numdiff1_quadratic.

(** numdiff2, whose index is a list: with a numpy that reads such a list as a tuple it
    returns the partial derivatives at one point, for every entry of the point... *)
Theorem C27_numdiff2_old_numpy_partial :
  forall dv n f x0,
    dv <> 0 ->
    exists D, numdiff2 true dv n f x0 = Ok D /\
      forall s ind obs, (ind < n)%nat ->
        quadratic_along (fun h => f (shift x0 ind h) s obs) ->
        derivable_pt_lim (fun h => f (shift x0 ind h) s obs) 0 (D s ind obs).
Proof. exact numdiff2_quadratic. Qed.
Print Assumptions C27_numdiff2_old_numpy_partial.

(** ... and with the others it raises for every function and every point that has an
    entry. *)
Theorem C27_numdiff2_refuted :
  forall dv n f x0, n <> 0%nat -> numdiff2 false dv n f x0 = Err ExcIndex.
Proof. exact numdiff2_raises. Qed.
Print Assumptions C27_numdiff2_refuted.

(** Compiler numdiff on affine functions with as many values as rows. *)
Theorem C27_compiler_numdiff_square :
  forall N fun_ args ds (A : nat -> nat -> nat -> nat -> R) (b : nat -> nat -> R),
    (forall l n v, fun_ l n v =
       b n v + rsum (length args) (fun i =>
         mat_vec (fst (nth i args (0%nat, fun _ _ => 0))) (A i n) (nth i l (fun _ _ => 0) n) v)) ->
    numdiff N N fun_ args = Ok ds ->
    length ds = length args /\
    forall i n v j, (i < length args)%nat -> (j < fst (nth i args (0%nat, fun _ _ => 0%R)))%nat ->
      nth i ds (fun _ _ _ => 0) n v j = A i n v j.
Proof. exact numdiff_square. Qed.
Print Assumptions C27_compiler_numdiff_square.

(** For any other number of values (but one) it raises, whatever the function: the claim
    fails for the compiler's numdiff. *)
Theorem C27_compiler_numdiff_rect_refuted :
  forall N n_v fun_ args,
    n_v <> N -> n_v <> 1%nat -> (exists a, In a args /\ fst a <> 0%nat) ->
    numdiff N n_v fun_ args = Err ExcValue.
Proof. exact numdiff_rect_raises. Qed.
Print Assumptions C27_compiler_numdiff_rect_refuted.

(** x0 x1 + 3 x0^2 is quadratic along each axis and not affine. *)
Example C27_nonvacuous :
  forall j, quadratic_along (fun h => shift (fun _ => 2) j h 0%nat * shift (fun _ => 2) j h 1%nat
                                     + 3 * shift (fun _ => 2) j h 0%nat ^ 2).
Proof. exact quadratic_example. Qed.
