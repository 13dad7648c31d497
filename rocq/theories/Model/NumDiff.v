(** Numerical differentiation: dolo/numeric/misc.py [MyJacobian],
    dolo/numeric/optimize/newton.py [SerialDifferentiableFunction],
    dolo/numeric/serial_operations.py [numdiff1], dolo/compiler/misc.py [numdiff]. *)
From Coq Require Import Reals List Arith.
From Verif.Base Require Import Prelude.
Import ListNotations.
Open Scope R_scope.

(** [x] with [h] added to entry [j]. *)
Definition shift (x : nat -> R) (j : nat) (h : R) : nat -> R :=
  fun k => if Nat.eqb k j then x k + h else x k.

(** misc.py:69-83; entry (i, j) of D. *)
Definition MyJacobian (eps : R) (fun_ : (nat -> R) -> nat -> R) (x : nat -> R) (i j : nat) : R :=
  let y1 := fun_ (shift x j eps) in
  let y2 := fun_ (shift x j (- eps)) in
  (y1 i - y2 i) / eps / 2.

(** Column [j] of every row shifted by [h]: [xi[:, j] += h]. *)
Definition shift_col (x : nat -> nat -> R) (j : nat) (h : R) : nat -> nat -> R :=
  fun n => shift (x n) j h.

(** newton.py:167-190; entry (n, v, i) of dv. *)
Definition serial_diff (eps : R) (f : (nat -> nat -> R) -> nat -> nat -> R) (x : nat -> nat -> R)
    (n v i : nat) : R :=
  (f (shift_col x i eps) n v - f x n v) / eps.

(** serial_operations.py:6-34.  All axes but the last are flattened: [x0 ind obs] and
    [f x s obs]; entry (s, ind, obs) of the result. *)
Definition shift_row (x : nat -> nat -> R) (ind : nat) (h : R) : nat -> nat -> R :=
  fun k obs => if Nat.eqb k ind then x k obs + h else x k obs.
Definition numdiff1 (dv : R) (f : (nat -> nat -> R) -> nat -> nat -> R) (x0 : nat -> nat -> R)
    (s ind obs : nat) : R :=
  (f (shift_row x0 ind dv) s obs - f (shift_row x0 ind (- dv)) s obs) / dv / 2.

(** serial_operations.py:37-63 [numdiff2]: [x0] is one point, with its axes flattened into
    [n] entries, and the values of [f] have the observations on their last axis. The index
    of the assignment line 61 is a list with an Ellipsis and a slice ("obj = tuple(obj)",
    which [numdiff1] has, is commented out, line 60): numpy read such a list as a tuple
    until version 1.22 ([lists_as_tuples]) and raises IndexError since. The assignment is
    made once per entry of [x0]. *)
Definition numdiff2 (lists_as_tuples : bool) (dv : R) (n : nat)
    (f : (nat -> R) -> nat -> nat -> R) (x0 : nat -> R) : res (nat -> nat -> nat -> R) :=
  for_range_res n
    (fun ind ret =>
       let x := shift x0 ind dv in
       let x2 := shift x0 ind (- dv) in
       let df := fun s obs => (f x s obs - f x2 s obs) / dv / 2 in
       if lists_as_tuples then
         Ok (fun s k obs => if Nat.eqb k ind then df s obs else ret s k obs)
       else Err ExcIndex)
    (fun _ _ _ => 0).

(** compiler/misc.py:102-123.  [args] is the list of (number of columns, array with N rows);
    [n_v] the number of columns of the result of [fun].  Line 111 takes the number of
    ROWS for the number of values: the array [dv] has shape (N, N, l_a), and the assignment
    line 121 of an (N, n_v) array raises ValueError unless n_v = N, or n_v = 1 (numpy then
    repeats the column). *)
Fixpoint set_nth {A} (l : list A) (i : nat) (a : A) : list A :=
  match l, i with
  | [], _ => []
  | _ :: t, O => a :: t
  | h :: t, S i' => h :: set_nth t i' a
  end.

Definition numdiff_eps : R := 1 / 100000000.

Definition numdiff_entry (fun_ : list (nat -> nat -> R) -> nat -> nat -> R)
    (args : list (nat -> nat -> R)) (i j n v : nat) : R :=
  let xx := shift_col (nth i args (fun _ _ => 0)) j numdiff_eps in
  (fun_ (set_nth args i xx) n v - fun_ args n v) / numdiff_eps.

(** Result: one tensor per argument, all of shape (N, N, l_a). *)
Definition numdiff (N n_v : nat) (fun_ : list (nat -> nat -> R) -> nat -> nat -> R)
    (args : list (nat * (nat -> nat -> R))) : res (list (nat -> nat -> nat -> R)) :=
  let arrs := map snd args in
  if orb (Nat.eqb n_v N) (orb (Nat.eqb n_v 1) (forallb (fun a => Nat.eqb (fst a) 0) args)) then
    Ok (map (fun i n v j => numdiff_entry fun_ arrs i j n (if Nat.eqb n_v N then v else 0%nat))
            (seq 0 (length args)))
  else Err ExcValue.
