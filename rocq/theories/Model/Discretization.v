(** Model of dolo/numeric/discretization/discretization.py. *)
From Coq Require Import Reals List Arith Lia Lra Bool String.
From Verif.Base Require Import Prelude Sums Arrays.
Import ListNotations.
Open Scope R_scope.

(* ------------------------------------------------------------------ *)
(** ** tauchen (discretization.py:13-54)

    [cdf] stands for [scipy.stats.norm.cdf] (a parameter).  Differences:
    exact reals; [N = 0] is numpy's IndexError on [Z[-1]]; [rho^2 = 1] is the
    ZeroDivisionError and [rho^2 > 1] the "math domain error" of line 30; [N = 1]
    (0/0 at line 32) and [sigma = 0] (division by zero at lines 43-51) are flagged
    [ResultNaN]. The column array [Z] of shape (N,1) is a vector here. *)
Section Tauchen.
  Variable cdf : R -> R.

  (* lines 30-31: the last node before recentring *)
  Definition tauchen_zmax (rho sigma m : R) : R := m * sqrt (sigma ^ 2 / (1 - rho ^ 2)).

  (* line 32 *)
  Definition tauchen_zstep (N : nat) (rho sigma m : R) : R :=
    (tauchen_zmax rho sigma m - - tauchen_zmax rho sigma m) / (INR N - 1).

  (* lines 34-37: [Z[i] = Z[0] + zstep*i] then [Z + a/(1-rho)]; note that the loop
     starts at 1 and overwrites the last node *)
  Definition tauchen_node (N : nat) (mu rho sigma m : R) (i : nat) : R :=
    let a := (1 - rho) * mu in
    let z0 := - tauchen_zmax rho sigma m in
    (if Nat.eqb i 0 then z0 else z0 + tauchen_zstep N rho sigma m * INR i) + a / (1 - rho).

  (* lines 39-52 *)
  Definition tauchen_prob (N : nat) (mu rho sigma m : R) (j k : nat) : R :=
    let Z := tauchen_node N mu rho sigma m in
    let a := (1 - rho) * mu in
    let zstep := tauchen_zstep N rho sigma m in
    if Nat.eqb k 0 then cdf ((Z 0%nat - a - rho * Z j + zstep / 2) / sigma)
    else if Nat.eqb k (N - 1) then
      1 - cdf ((Z (N - 1)%nat - a - rho * Z j - zstep / 2) / sigma)
    else
      let up := cdf ((Z k - a - rho * Z j + zstep / 2) / sigma) in
      let down := cdf ((Z k - a - rho * Z j - zstep / 2) / sigma) in
      up - down.

  Definition tauchen (N : nat) (mu rho sigma m : R) : res (vec * mat) :=
    match N with
    | O => Err ExcIndex
    | S _ =>
      if Req_EM_T (1 - rho ^ 2) 0 then Err ExcZeroDiv
      else if Rlt_dec (1 - rho ^ 2) 0 then Err ExcValue
      else if Nat.eqb N 1 then Err ResultNaN
      else if Req_EM_T sigma 0 then Err ResultNaN
      else Ok (Vec N (tauchen_node N mu rho sigma m),
               Mat N N (tauchen_prob N mu rho sigma m))
    end.
End Tauchen.

(* ------------------------------------------------------------------ *)
(** ** rouwenhorst (discretization.py:57-101) *)

(* lines 88-96: an n x n array of zeros into which [m0] is written with its corner at
   (dr, dc); [m0] is (n-1) x (n-1) *)
Definition rouw_pad (n dr dc : nat) (m0 : nat -> nat -> R) : nat -> nat -> R :=
  fun i j =>
    if (Nat.leb dr i && Nat.ltb (i - dr) (n - 1) && Nat.leb dc j && Nat.ltb (j - dc) (n - 1))%bool
    then m0 (i - dr)%nat (j - dc)%nat else 0.

(* lines 93-99: one pass of the loop, building the n x n matrix *)
Definition rouw_step (p q : R) (n : nat) (m0 : nat -> nat -> R) : nat -> nat -> R :=
  let mat_A := rouw_pad n 0 0 m0 in
  let mat_B := rouw_pad n 0 1 m0 in
  let mat_C := rouw_pad n 1 0 m0 in
  let mat_D := rouw_pad n 1 1 m0 in
  let m1 := fun i j => p * mat_A i j + (1 - p) * mat_B i j + (1 - q) * mat_C i j + q * mat_D i j in
  fun i j => if (Nat.leb 1 i && Nat.ltb i (n - 1))%bool then m1 i j / 2 else m1 i j.

(* line 84 *)
Definition rouw_init (p q : R) : nat -> nat -> R :=
  fun i j => match i, j with
             | O, O => p
             | O, _ => 1 - p
             | _, O => 1 - q
             | _, _ => q
             end.

(* lines 87-99: [for n in range(3, N+1)] *)
Definition rouw_mat (p q : R) (N : nat) : nat -> nat -> R :=
  for_range (N - 2) (fun k m0 => rouw_step p q (k + 3) m0) (rouw_init p q).

(* lines 69-101.  [rho^2 = 1] is a ZeroDivisionError (line 78, python floats); for
   rho^2 > 1 numpy's sqrt gives nan nodes; [N = 0] (empty nodes beside a 2 x 2 matrix,
   nan under the square root) is flagged [ResultNaN]. *)
Definition rouwenhorst (rho sigma : R) (N : nat) : res (vec * mat) :=
  if Nat.eqb N 1 then Ok (Vec 1 (fun _ => 0), Mat 1 1 (fun _ _ => 1))
  else if Nat.eqb N 0 then Err ResultNaN
  else if Req_EM_T (1 - rho ^ 2) 0 then Err ExcZeroDiv
  else if Rlt_dec (1 - rho ^ 2) 0 then Err ResultNaN
  else
    let p := (rho + 1) / 2 in
    let q := p in
    let nu := sqrt ((INR N - 1) / (1 - rho ^ 2)) * sigma in
    Ok (Vec N (linspace (- nu) nu N), Mat N N (rouw_mat p q N)).

(* ------------------------------------------------------------------ *)
(** ** tensor_markov (discretization.py:158-208)

    A chain is the pair (nodes, transitions) of 2-d arrays. *)
Definition chain : Type := (mat * mat)%type.

(* lines 175-201: exactly two arguments *)
Definition tensor_markov2 (m1 m2 : chain) : res chain :=
  let '(n1, t1) := m1 in
  let '(n2, t2) := m2 in
  if (Nat.eqb (nrow n1) (nrow t1) && Nat.eqb (nrow t1) (ncol t1)
      && Nat.eqb (nrow n2) (nrow t2) && Nat.eqb (nrow t2) (ncol t2))%bool
  then
    let t := kron t1 t2 in
    let p := nrow t1 in
    let q := nrow t2 in
    bind (column_stack (repeat_rows n1 q) (tile_rows n2 p)) (fun n => Ok (n, t))
  else Err ExcAssert.

(* lines 166-173 and 203-208: more than two arguments are folded from the left,
   fewer than two raise *)
Fixpoint tensor_markov_fold (acc : chain) (l : list chain) : res chain :=
  match l with
  | [] => Ok acc
  | m :: l' => bind (tensor_markov2 acc m) (fun acc' => tensor_markov_fold acc' l')
  end.

Definition tensor_markov (args : list chain) : res chain :=
  match args with
  | m1 :: m2 :: tail => tensor_markov_fold m1 (m2 :: tail)
  | _ => Err (ExcGeneric "Incorrect number of arguments. Expected at least 2.")
  end.

(* ------------------------------------------------------------------ *)
(** ** multidimensional_discretization (discretization.py:104-155),
    with [method="rouwenhorst"].

    [chol] is [scipy.linalg.cholesky] (upper factor by default).  The tauchen branch
    (whose (N,1)-shaped nodes make the result a 3-d array) is not modelled. *)
Section Multidim.
  Variable chol : mat -> res mat.

  (* line 128: the indices of columns whose sum is zero *)
  Definition zero_column (s : mat) (i : nat) : bool :=
    if Req_EM_T (rsum (nrow s) (fun k => mget s k i)) 0 then true else false.

  (* lines 126-130, on a copy *)
  Definition patch_zero (s : mat) : mat :=
    Mat (nrow s) (ncol s)
        (fun i j => if (Nat.eqb i j && zero_column s i)%bool then 1 else mget s i j).

  (* digit [a] (0 = most significant) of [k] among [d] digits in base [N]: the
     enumeration order of itertools.product, lines 141-142 *)
  Definition digit (N d a k : nat) : nat := (k / N ^ (d - 1 - a)) mod N.

  (* lines 146-148 *)
  Fixpoint kron_power (d : nat) (p : mat) : mat :=
    match d with
    | O => Mat 1 1 (fun _ _ => 1)
    | S d' => kron (kron_power d' p) p
    end.

  Definition multidimensional_discretization (rho : R) (sigma : mat) (N : nat)
    : res chain :=
    let d := ncol sigma in
    bind (chol (patch_zero sigma)) (fun L =>
    bind (rouwenhorst rho 1 N) (fun np =>
    let '(nodes_1d, probas_1d) := np in
    (* line 144: np.dot(L, markov_nodes), then transposed; zero columns reset *)
    let nodes := fun k i =>
       if zero_column sigma i then 0
       else rsum d (fun j => mget L i j * vget nodes_1d (digit N d j k)) in
    Ok (Mat (N ^ d) d nodes, kron_power d probas_1d))).
End Multidim.
