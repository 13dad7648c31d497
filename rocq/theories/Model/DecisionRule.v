(** Decision rules: dolo/numeric/decision_rule.py. *)
From Coq Require Import String Reals List Arith.
From Verif.Base Require Import Prelude Arrays.
From Verif.Spec Require Import Product.
From Verif.Model Require Import Grids.
Import ListNotations.
Open Scope R_scope.

(** numpy arrays of any dimension: shape, entries in C order. *)
Record nd : Type := { nd_shape : list nat; nd_data : nat -> R }.

(** [x.reshape(dims + (-1,))]. *)
Definition reshape_last (x : nd) (dims : list nat) : res nd :=
  let p := prodn dims in
  if Nat.eqb p 0 then Err ExcValue
  else if Nat.eqb (prodn (nd_shape x) mod p) 0
  then Ok {| nd_shape := dims ++ [(prodn (nd_shape x) / p)%nat]; nd_data := nd_data x |}
  else Err ExcValue.

(** [x[i]]. *)
Definition nd_item (x : nd) (i : nat) : res nd :=
  match nd_shape x with
  | n :: sh => if Nat.ltb i n
               then Ok {| nd_shape := sh; nd_data := fun k => nd_data x (i * prodn sh + k)%nat |}
               else Err ExcIndex
  | [] => Err ExcIndex
  end.

(** A comprehension whose body may raise. *)
Fixpoint map_res {A B} (f : A -> res B) (l : list A) : res (list B) :=
  match l with
  | [] => Ok []
  | a :: t => bind (f a) (fun b => bind (map_res f t) (fun bs => Ok (b :: bs)))
  end.

(** [np.concatenate([m, s], axis=1)]: ValueError on different numbers of rows. *)
Definition concat_cols (m s : list (list R)) : res (list (list R)) :=
  if Nat.eqb (length m) (length s)
  then Ok (map (fun p => fst p ++ snd p) (combine m s)) else Err ExcValue.

(** 32-49.  "multilinear" and "linear" are both Linear. *)
Inductive interp := Linear | Cubic | Chebychev.

(** [grid.n] of a CartesianGrid (grids.py:116-118, 149), None for other grids. *)
Definition grid_dims (g : grid) : option (list nat) :=
  match g with
  | GUniform u => Some (u_n u)
  | GNonUniform u => Some (map (@length R) (nu_axes u))
  | _ => None
  end.

(** [grid.node(i)] (grids.py:32-33) for grids that have nodes. *)
Definition grid_node (g : grid) (i : nat) : res (list R) :=
  match g with
  | GUnstructured p => if Nat.ltb i (nrow p) then Ok (row p i) else Err ExcIndex
  | GUniform u => if Nat.ltb i (nrow (u_nodes u)) then Ok (row (u_nodes u) i) else Err ExcIndex
  | GNonUniform u => if Nat.ltb i (nrow (nu_nodes u)) then Ok (row (nu_nodes u) i) else Err ExcIndex
  | _ => Err ExcType
  end.

(** NotImplementedError of multipledispatch. *)
Definition not_registered : exn := ExcGeneric "NotImplementedError".

Inductive coefs := CArr (c : nd) | CList (l : list nd).

(** The index [i] of [eval_is(i, s)]: an integer, or an integer array with at least one axis. *)
Inductive index := IInt (i : nat) | IArr (l : list nat).

Section Rule.
  (** interpolation.splines (third party, not modelled): [eval_linear(gg, coeffs, points)],
      [prefilter_cubic(gg, values)], [eval_cubic(gg, coeffs, points)]; the tuple [gg] built by
      [__numba_repr__] is represented by the grid. *)
  Variable eval_linear : grid -> nd -> list (list R) -> res (list (list R)).
  Variable prefilter_cubic : grid -> nd -> res nd.
  Variable eval_cubic : grid -> nd -> list (list R) -> res (list (list R)).

  (** 161-171, 214-228, 271-279, 304-318, 342-350, 376-386, 408-420.  The registration 342-350 has the
      same signature as 271-279 and replaces it: the coefficients are not reshaped. *)
  Definition get_coefficients (exo endo : grid) (m : interp) (x : nd) : res coefs :=
    match exo, grid_dims endo, m with
    | (GUniform _ | GNonUniform _), Some _, Linear =>
        bind (grid_add exo endo) (fun g =>
        match grid_dims g with
        | Some dims => bind (reshape_last x dims) (fun c => Ok (CArr c))
        | None => Err ExcAttribute
        end)
    | (GUniform _ | GNonUniform _), Some _, Cubic =>
        bind (grid_add exo endo) (fun g =>
        match grid_dims g with
        | Some dims => bind (reshape_last x dims) (fun c =>
                       bind (prefilter_cubic g c) (fun c => Ok (CArr c)))
        | None => Err ExcAttribute
        end)
    | GUnstructured _, Some _, Linear =>
        bind (map_res (nd_item x) (seq 0 (hd 0%nat (nd_shape x)))) (fun l => Ok (CList l))
    | GUnstructured _, Some dims, Cubic =>
        bind (map_res (fun i => bind (nd_item x i) (fun xi =>
                                bind (reshape_last xi dims) (prefilter_cubic endo)))
                      (seq 0 (hd 0%nat (nd_shape x)))) (fun l => Ok (CList l))
    | GEmpty, Some dims, Linear => bind (reshape_last x dims) (fun c => Ok (CArr c))
    | GEmpty, Some dims, Cubic =>
        bind (nd_item x 0) (fun x0 => bind (reshape_last x0 dims) (fun c =>
        bind (prefilter_cubic endo c) (fun c => Ok (CArr c))))
    | _, _, _ => Err not_registered
    end.

  (** The [eval_*] of a rule whose coefficients are a list would fail on the array operation and
      conversely. *)
  Definition arr_coefs (c : coefs) : res nd := match c with CArr c => Ok c | CList _ => Err ExcType end.
  Definition list_coefs (c : coefs) (i : nat) : res nd :=
    match c with
    | CList l => match nth_error l i with Some c => Ok c | None => Err ExcIndex end
    | CArr c => nd_item c i
    end.

  (** 389-402, 423-436. *)
  Definition eval_s (exo endo : grid) (m : interp) (c : coefs) (s : list (list R)) : res (list (list R)) :=
    match exo, grid_dims endo, m with
    | GEmpty, Some _, Linear => bind (arr_coefs c) (fun c => eval_linear endo c s)
    | GEmpty, Some _, Cubic => bind (arr_coefs c) (fun c => eval_cubic endo c s)
    | _, _, _ => Err not_registered
    end.

  (** 174-195, 231-252, 454-463. *)
  Definition eval_ms (exo endo : grid) (i : interp) (c : coefs) (m s : list (list R)) : res (list (list R)) :=
    match exo, grid_dims endo, i with
    | (GUniform _ | GNonUniform _), Some _, (Linear | Cubic) =>
        bind (grid_add exo endo) (fun g => bind (concat_cols m s) (fun x => bind (arr_coefs c) (fun c =>
        match i with Cubic => eval_cubic g c x | _ => eval_linear g c x end)))
    | GEmpty, _, _ => eval_s exo endo i c s
    | _, _, _ => Err not_registered
    end.

  (** 198-208, 255-265, 282-298 replaced by 353-370, 321-336, 442-451.  An array of indices is not a
      valid index of a list; on a Cartesian grid it gives a three-dimensional m (when it is in range). *)
  Definition eval_is (exo endo : grid) (k : interp) (c : coefs) (i : index) (s : list (list R)) : res (list (list R)) :=
    match exo, grid_dims endo, k with
    | (GUniform _ | GNonUniform _), Some _, (Linear | Cubic) =>
        match i with
        | IInt i => bind (grid_node exo i) (fun m => eval_ms exo endo k c [m] s)
        | IArr l => if forallb (fun i => Nat.ltb i (n_nodes exo)) l then Err ExcAssert else Err ExcIndex
        end
    | GUnstructured _, Some _, Linear =>
        match i with IInt i => bind (list_coefs c i) (fun c => eval_linear endo c s) | IArr _ => Err ExcType end
    | GUnstructured _, Some _, Cubic =>
        match i with IInt i => bind (list_coefs c i) (fun c => eval_cubic endo c s) | IArr _ => Err ExcType end
    | GEmpty, _, _ => eval_s exo endo k c s
    | _, _, _ => Err not_registered
    end.

  (** 136-148; [inode i j] is dprocess.inode(i, j). *)
  Definition eval_ijs (inode : nat -> nat -> list R) (exo endo : grid) (k : interp) (c : coefs)
      (i j : nat) (s : list (list R)) : res (list (list R)) :=
    match exo with
    | GUnstructured _ => eval_is exo endo k c (IInt j) s
    | GEmpty => eval_s exo endo k c s
    | GUniform _ | GNonUniform _ => eval_ms exo endo k c (repeat (inode i j) (length s)) s
    | _ => Err (ExcGeneric "Not Implemented.")
    end.
End Rule.

(** Arguments of a call, after [np.array] (line 56): float points (one or several rows); an
    integer (dtype int64/int32) scalar or array in first position. *)
Inductive points := P1 (p : list R) | P2 (rows : list (list R)).
Inductive first_arg := Idx (i : index) | Pts (p : points).

Section Call.
  Variable ev_s : list (list R) -> res (list (list R)).
  Variable ev_is : index -> list (list R) -> res (list (list R)).
  Variable ev_ms : list (list R) -> list (list R) -> res (list (list R)).

  (** [out[0, :]]. *)
  Definition first_row (out : list (list R)) : res points :=
    match out with r :: _ => Ok (P1 r) | [] => Err ExcIndex end.

  (** 57-61. *)
  Definition call1 (s : points) : res points :=
    match s with
    | P1 p => bind (ev_s [p]) first_row
    | P2 rows => bind (ev_s rows) (fun o => Ok (P2 o))
    end.

  (** 62-78. *)
  Definition call2 (a : first_arg) (s : points) : res points :=
    match a, s with
    | Idx i, P1 p => bind (ev_is i [p]) first_row
    | Idx i, P2 rows => bind (ev_is i rows) (fun o => Ok (P2 o))
    | Pts (P1 m), P1 p => bind (ev_ms [m] [p]) first_row
    | Pts (P1 m), P2 rows => bind (ev_ms [m] rows) (fun o => Ok (P2 o))
    | Pts (P2 m), P1 p => bind (ev_ms m [p]) (fun o => Ok (P2 o))
    | Pts (P2 m), P2 rows => bind (ev_ms m rows) (fun o => Ok (P2 o))
    end.
End Call.

(** 469-484: ConstantDecisionRule (called with a 2-d array by __call__). *)
Definition constant_s (x0 : list R) (s : list (list R)) : res (list (list R)) := Ok (map (fun _ => x0) s).
