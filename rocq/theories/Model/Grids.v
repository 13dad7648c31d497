(** Cartesian products and grids: dolo/numeric/misc.py, dolo/numeric/grids.py. *)
From Coq Require Import String Reals List Arith.
From Verif.Base Require Import Prelude Arrays.
From Verif.Spec Require Import Product.
Import ListNotations.
Open Scope R_scope.

(** misc.py:4-52 (generic in the type of the entries) on the view [out[0:n, c:]] of an array with [D] columns; [conv] is the
    conversion to the dtype of [out].  Axes are nonempty (the empty case, where numpy divides
    by zero, is not modelled).  np.repeat(a, m)[r] is a[r // m]. *)
Fixpoint cartesian_into {A} (dflt : A) (conv : A -> A) (D : nat) (arrays : list (list A)) (c : nat)
    (out : nat -> nat -> A) : nat -> nat -> A :=
  match arrays with
  | [] => out
  | a :: rest =>
      let n := prodn (map (@length A) arrays) in
      let m := (n / length a)%nat in
      let out1 := fun r k => if andb (Nat.ltb r n) (Nat.eqb k c)
                             then conv (nth (r / m) a dflt) else out r k in
      match rest with
      | [] => out1
      | _ =>
          let out2 := cartesian_into dflt conv D rest (S c) out1 in
          for_range (length a - 1) (fun j0 o => let j := S j0 in
            fun r k => if andb (andb (Nat.leb (j * m) r) (Nat.ltb r ((j + 1) * m)))
                               (andb (Nat.ltb c k) (Nat.ltb k D))
                       then o (r - j * m)%nat k else o r k) out2
      end
  end.

(** Truncation toward zero: assignment of a float to an integer array. *)
Definition trunc (x : R) : R :=
  if Rle_dec 0 x then IZR (Int_part x) else - IZR (Int_part (- x)).

(** misc.py:39-52 with out=None: the dtype is that of the first array (line 40); an empty
    list raises IndexError.  [int_first]: the first array has an integer dtype. *)
Definition cartesian (int_first : bool) (arrays : list (list R)) : res mat :=
  match arrays with
  | [] => Err ExcIndex
  | _ => Ok (Mat (prodn (map (@length R) arrays)) (length arrays)
              (cartesian_into 0 (if int_first then trunc else fun x => x)
                 (length arrays) arrays 0 (fun _ _ => 0)))
  end.

(** numpy.linspace(a, b, n) as a list. *)
Definition linspace_list (a b : R) (n : nat) : list R := map (linspace a b n) (seq 0 n).

(** misc.py:59, the list of axes; [a[i]], [b[i]], [orders[i]] raise IndexError out of range. *)
Fixpoint linspaces (a b : list R) (orders : list nat) : res (list (list R)) :=
  match a, b, orders with
  | [], _, _ => Ok []
  | x :: a', y :: b', o :: os => bind (linspaces a' b' os) (fun l => Ok (linspace_list x y o :: l))
  | _, _, _ => Err ExcIndex
  end.

(** misc.py:55-66. *)
Definition mlinspace (a b : list R) (orders : list nat) : res mat :=
  bind (linspaces a b orders) (cartesian false).

(** grids.py: the kinds of grids that the code distinguishes. *)
Record ugrid : Type := { u_min : list R; u_max : list R; u_n : list nat; u_nodes : mat }.
Record nugrid : Type := { nu_axes : list (list R); nu_nodes : mat }.
Inductive grid : Type :=
| GEmpty
| GPoint (p : list R)
| GUnstructured (nodes : mat)
| GUniform (g : ugrid)
| GNonUniform (g : nugrid).

(** grids.py:108-121.  With n=[] line 116 makes a zero-dimensional array: indexing it raises
    IndexError. *)
Definition uniform_grid (min max : list R) (n : list nat) : res ugrid :=
  match n with
  | [] => Err ExcIndex
  | _ => bind (mlinspace min max n) (fun nodes =>
           Ok {| u_min := min; u_max := max; u_n := n; u_nodes := nodes |})
  end.

(** grids.py:126-135: line 132 and 133 repeat the bounds of the left operand. *)
Definition uniform_add (g1 g2 : ugrid) : res ugrid :=
  uniform_grid (u_min g1 ++ u_min g1) (u_max g1 ++ u_max g1) (u_n g1 ++ u_n g2).

(** grids.py:145-152: [cartesian] is quantecon's there; it is taken to enumerate the
    product in C order, as misc.cartesian does (min of an empty axis raises ValueError). *)
Definition nonuniform_grid (axes : list (list R)) : res nugrid :=
  if existsb (fun a => Nat.eqb (length a) 0) axes then Err ExcValue
  else bind (cartesian false axes) (fun nodes => Ok {| nu_axes := axes; nu_nodes := nodes |}).

(** grids.py:154-158. *)
Definition nonuniform_add (g1 g2 : nugrid) : res nugrid :=
  nonuniform_grid (nu_axes g1 ++ nu_axes g2).

(** [g1 + g2] for all kinds: grids.py:63-64, 126-135, 154-158 (the other kinds have no
    [__add__]). *)
Definition grid_add (g1 g2 : grid) : res grid :=
  match g1, g2 with
  | GEmpty, g => Ok g
  | GUniform a, GUniform b => bind (uniform_add a b) (fun g => Ok (GUniform g))
  | GNonUniform a, GNonUniform b => bind (nonuniform_add a b) (fun g => Ok (GNonUniform g))
  | GUniform _, _ | GNonUniform _, _ => Err (ExcGeneric "Not implemented.")
  | _, _ => Err ExcType
  end.

(** grids.py:184-194 (and [__mul__], 22-23): [CartesianGrid(min, max, n)] is a class without
    constructor, so the call raises TypeError. *)
Definition cat_grids (g1 g2 : grid) : res grid :=
  match g1, g2 with
  | GEmpty, g => Ok g
  | GUniform _, (GUniform _ | GNonUniform _) | GNonUniform _, (GUniform _ | GNonUniform _) => Err ExcType
  | _, _ => Err (ExcGeneric "Not Implemented.")
  end.

(** grids.py:28-30, 56-58, 78-81: [n_nodes]. *)
Definition n_nodes (g : grid) : nat :=
  match g with
  | GEmpty => 0
  | GPoint _ => 1
  | GUnstructured p => nrow p
  | GUniform g => nrow (u_nodes g)
  | GNonUniform g => nrow (nu_nodes g)
  end.
