(** Dense linear solvers written by hand in dolo:
    dolo/numeric/optimize/newton.py, dolo/numeric/serial_operations.py (same text)
    and dolo/algos/invert.py.
    Floats are exact reals; a division by zero, which gives nan/inf in the
    guvectorized kernels, is [Err ResultNaN], and [Err ExcZeroDiv] in [invert], compiled
    with Python's division semantics. *)
From Coq Require Import Reals List Arith Lia.
From Verif.Base Require Import Prelude Sums.
Import ListNotations.
Open Scope R_scope.

(** ** newton.py / serial_operations.py : [solve] *)

(** newton.py:21-24 (serial_operations.py:83-86): row of the largest pivot in column
    [y], searching rows y+1..h-1, ties keep the earlier row. *)
Definition find_pivot (h y : nat) (m : nat -> nat -> R) : nat :=
  for_range (h - (y + 1))
    (fun k maxrow =>
       let y2 := (y + 1 + k)%nat in
       if Rlt_dec (Rabs (m maxrow y)) (Rabs (m y2 y)) then y2 else maxrow)
    y.

(** newton.py:25-28 (serial_operations.py:87-90): swap rows [a] and [b], entry by
    entry over the [w] columns.  Also invert.py:20-27 [swaplines_matrix],
    :30-35 [swaplines_vector] (one column) and :10-17 [swaplines_tensor] (columns
    flattened). *)
Definition swap_rows (w a b : nat) (m : nat -> nat -> R) : nat -> nat -> R :=
  for_range w
    (fun k m => let t := m a k in upd2 (upd2 m a k (m b k)) b k t) m.

(** newton.py:32-33: [for x in range(y, w): m[y2, x] -= m[y, x] * c]. *)
Definition eliminate_row (y w y2 : nat) (c : R) (m : nat -> nat -> R) : nat -> nat -> R :=
  for_range (w - y)
    (fun k m => let x := (y + k)%nat in upd2 m y2 x (m y2 x - m y x * c)) m.

(** newton.py:30-33: eliminate column [y] in the rows below.  The division
    [m[y2, y] / m[y, y]] happens once per row below. *)
Definition eliminate_below (h w y : nat) (m : nat -> nat -> R) : res (nat -> nat -> R) :=
  for_range_res (h - (y + 1))
    (fun k m =>
       let y2 := (y + 1 + k)%nat in
       if Req_EM_T (m y y) 0 then Err ResultNaN
       else Ok (eliminate_row y w y2 (m y2 y / m y y) m)) m.

(** newton.py:20-33: forward elimination with partial pivoting. *)
Definition forward (h w : nat) (m : nat -> nat -> R) : res (nat -> nat -> R) :=
  for_range_res h
    (fun y m => eliminate_below h w y (swap_rows w y (find_pivot h y m) m)) m.

(** newton.py:38-39: [for x in range(w-1, y-1, -1): m[y2,x] -= m[y,x]*m[y2,y]/c];
    columns are visited from right to left. *)
Definition back_row (y w y2 : nat) (c : R) (m : nat -> nat -> R) : nat -> nat -> R :=
  for_range (w - y)
    (fun k m => let x := (w - 1 - k)%nat in
                upd2 m y2 x (m y2 x - m y x * m y2 y / c)) m.

(** newton.py:35-42: one step of the back substitution, for row [y]. *)
Definition back_step (h w y : nat) (m : nat -> nat -> R) : res (nat -> nat -> R) :=
  let c := m y y in
  if Req_EM_T c 0 then Err ResultNaN
  else
    let m1 := for_range y (fun y2 m => back_row y w y2 c m) m in
    let m2 := upd2 m1 y y (m1 y y / c) in
    Ok (for_range (w - h)
          (fun k m => let x := (h + k)%nat in upd2 m y x (m y x / c)) m2).

(** newton.py:35: [for y in range(h-1, 0-1, -1)]. *)
Definition backward (h w : nat) (m : nat -> nat -> R) : res (nat -> nat -> R) :=
  for_range_res h (fun k m => back_step h w (h - 1 - k)%nat m) m.

(** newton.py:13-45 (serial_operations.py:75-107) [solve(m, sol)]. *)
Definition solve_aug (h w : nat) (m : nat -> nat -> R) : res (nat -> R) :=
  bind (forward h w m) (fun m1 =>
  bind (backward h w m1) (fun m2 =>
  Ok (fun y => m2 y (w - 1)%nat))).

(** newton.py:72-74: [M = concatenate([A, B[:,:,None]], axis=2)], one page. *)
Definition augment (n : nat) (A : nat -> nat -> R) (b : nat -> R) : nat -> nat -> R :=
  fun i j => if Nat.ltb j n then A i j else b i.

(** One page of newton.py:71-75 ([serial_solve(..., diagnose=False)]). *)
Definition gauss_solve (n : nat) (A : nat -> nat -> R) (b : nat -> R) : res (nat -> R) :=
  solve_aug n (n + 1) (augment n A b).

(** newton.py:53-69 (serial_operations.py:119-134, same text): [serial_solve(A, B, diagnose=True)] with numpy's solver as the
    oracle [linalg_solve].  The raised exception carries the page index. *)
Inductive serial_outcome : Type :=
| SerialOk (sol : nat -> nat -> R)
| SerialFail (point : nat).

Definition serial_solve_diag
    (linalg_solve : (nat -> nat -> R) -> (nat -> R) -> res (nat -> R))
    (N : nat) (A : nat -> nat -> nat -> R) (B : nat -> nat -> R) : serial_outcome :=
  for_range N
    (fun i out =>
       match out with
       | SerialFail _ => out
       | SerialOk sol =>
           match linalg_solve (A i) (B i) with
           | Ok x => SerialOk (upd sol i x)
           | Err _ => SerialFail i
           end
       end)
    (SerialOk (fun _ _ => 0)).

(** newton.py:71-75 (serial_operations.py:136-141) with [diagnose=False]: every page is solved on its own; a page
    where a division by zero happens is left with nan entries ([None] here). *)
Definition serial_solve_nodiag
    (n N : nat) (A : nat -> nat -> nat -> R) (B : nat -> nat -> R)
  : nat -> option (nat -> R) :=
  fun i => match gauss_solve n (A i) (B i) with Ok x => Some x | Err _ => None end.

(** serial_operations.py:144-168 [serial_multiplication], three-dimensional case,
    with shapes (NA,I,JA) and (NB,JB,K). *)
Definition serial_multiplication
    (NA I JA NB JB K : nat) (A B : nat -> nat -> nat -> R)
  : res (nat -> nat -> nat -> R) :=
  if andb (Nat.eqb JB JA) (Nat.eqb NB NA) then
    Ok (for_range NA (fun n resp =>
          for_range I (fun i resp =>
            for_range K (fun k resp =>
              let v := for_range JA (fun j v => v + A n i j * B n j k) 0 in
              fun n' i' k' =>
                if andb (Nat.eqb n' n) (andb (Nat.eqb i' i) (Nat.eqb k' k))
                then v else resp n' i' k') resp) resp)
          (fun _ _ _ => 0))
  else Err ExcAssert.

(** ** dolo/algos/invert.py *)

(** invert.py:142-148: the pivot search of [invert]; ties take the later row. *)
Definition find_pivot_last (n i : nat) (A : nat -> nat -> R) : nat :=
  snd (for_range (n - i)
         (fun k st =>
            let i0 := (i + k)%nat in
            let err := Rabs (A i0 i) in
            if Rle_dec (fst st) err then (err, i0) else st)
         (-1, 0%nat)).

(** invert.py:100-105 [divide_matrix] over [q] columns (see [invert_rhs] for which [q]
    the code uses); invert.py:108-111 [divide_vector] is the one-column case,
    invert.py:91-97 [divide_tensor] the flattened one. *)
Definition divide_row (q i : nat) (c : R) (M : nat -> nat -> R) : nat -> nat -> R :=
  for_range q (fun k M => upd2 M i k (M i k / c)) M.

(** invert.py:56-61 [substract_matrix]: Li <- Li - c*Lj over [q] columns; :64-68
    [substract_vector]; :47-53 [substract_tensor]. *)
Definition substract_row (q i j : nat) (c : R) (M : nat -> nat -> R) : nat -> nat -> R :=
  for_range q (fun k M => upd2 M i k (M i k - c * M j k)) M.

(** invert.py:134-166 [invert(A, B)].  [p] is the number of columns of [B] that
    [swaplines] visits, [q] the number that [divide] and [substract] visit. *)
Definition invert_core (n p q : nat) (A B : nat -> nat -> R)
  : res ((nat -> nat -> R) * (nat -> nat -> R)) :=
  bind
    (for_range_res n
       (fun i st =>
          let mi := find_pivot_last n i (fst st) in
          let A1 := swap_rows n i mi (fst st) in
          let B1 := swap_rows p i mi (snd st) in
          let c := A1 i i in
          if Req_EM_T c 0 then Err ExcZeroDiv
          else
            let A2 := divide_row n i c A1 in
            let B2 := divide_row q i c B1 in
            Ok (for_range (n - (i + 1))
                  (fun k st =>
                     let i0 := (i + 1 + k)%nat in
                     let f := fst st i0 i in
                     (substract_row n i0 i f (fst st), substract_row q i0 i f (snd st)))
                  (A2, B2)))
       (A, B))
    (fun st =>
       Ok (for_range n
             (fun k st =>
                let i := (n - 1 - k)%nat in
                for_range i
                  (fun i0 st =>
                     let f := fst st i0 i in
                     (substract_row n i0 i f (fst st), substract_row q i0 i f (snd st)))
                  st)
             st)).

(** The three kinds of right-hand sides accepted by [invert]. *)
Inductive rhs : Type :=
| RVec                        (* B of shape (n,) *)
| RMat (p : nat)              (* B of shape (n,p) *)
| RTen (p q : nat).           (* B of shape (n,p,q), flattened to n x (p*q) *)

(** Number of columns of the right-hand side. *)
Definition rhs_cols (n : nat) (k : rhs) : nat :=
  match k with RVec => 1 | RMat p => p | RTen p q => p * q end.

(** Columns actually visited by [divide]/[substract]: the matrix versions take
    [M.shape[0]], i.e. [n], as the number of columns (invert.py:59-61, :103-105). *)
Definition rhs_visited (n : nat) (k : rhs) : nat :=
  match k with RVec => 1 | RMat p => n | RTen p q => p * q end.

(** [invert] on each kind of right-hand side.  If [n > p] the matrix version reads and
    writes beyond the row (numba does no bounds check): modelled as an error. *)
Definition invert (n : nat) (k : rhs) (A B : nat -> nat -> R)
  : res ((nat -> nat -> R) * (nat -> nat -> R)) :=
  if Nat.ltb (rhs_cols n k) (rhs_visited n k) then Err ExcIndex
  else invert_core n (rhs_cols n k) (rhs_visited n k) A B.

(** invert.py:179-184 [invert_gu]: the inverse, by solving for the identity. *)
Definition invert_gu (n : nat) (A : nat -> nat -> R) : res (nat -> nat -> R) :=
  bind (invert n (RMat n) A (fun i j => if Nat.eqb i j then 1 else 0))
       (fun st => Ok (snd st)).
