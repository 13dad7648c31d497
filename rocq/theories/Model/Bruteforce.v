(** Brute-force Jacobians of improved time iteration: dolo/algos/bruteforce_lib.py, and the linear
    operator handed to gmres (dolo/algos/improved_time_iteration.py). *)
From Coq Require Import String Reals List Arith Bool.
From Verif.Base Require Import Prelude Arrays Sums.
From Verif.Model Require Import DecisionRule TimeIteration LinearSolve ImprovedTimeIteration.
From Verif.Base Require Import Nda.
Import ListNotations.
Open Scope R_scope.
Open Scope list_scope.

(** ** B_prod *)

(** Right-hand side of [P[:, i, :, i] = B]: numpy repeats a single column, other shapes than (d, d) raise. *)
Definition fits_square (B : mat) : bool := Nat.eqb (ncol B) (nrow B) || Nat.eqb (ncol B) 1.
Definition entry (B : mat) (a b : nat) : R := mget B a (if Nat.eqb (ncol B) 1 then 0%nat else b).

(** bruteforce_lib.py:38-63, two bases: two arrays with four axes filled by slices, read as matrices,
    multiplied. *)
Definition b_prod_2 (Bx By : mat) : mat :=
  let d0 := nrow Bx in
  let d1 := nrow By in
  let Px := for_range d1 (fun i P a i1 b i2 =>
              if Nat.eqb i1 i && Nat.eqb i2 i then entry Bx a b else P a i1 b i2) (fun _ _ _ _ => 0) in
  let Py := for_range d0 (fun i P i1 a i2 b =>
              if Nat.eqb i1 i && Nat.eqb i2 i then entry By a b else P i1 a i2 b) (fun _ _ _ _ => 0) in
  let dim := (d0 * d1)%nat in
  let flat (P : nat -> nat -> nat -> nat -> R) (r c : nat) := P (r / d1)%nat (r mod d1)%nat (c / d1)%nat (c mod d1)%nat in
  Mat dim dim (fun r c => rsum dim (fun k => flat Px r k * flat Py k c)).

(** 65-97, three bases. *)
Definition b_prod_3 (Bx By Bz : mat) : mat :=
  let d0 := nrow Bx in
  let d1 := nrow By in
  let d2 := nrow Bz in
  let zero6 : nat -> nat -> nat -> nat -> nat -> nat -> R := fun _ _ _ _ _ _ => 0 in
  let Px := for_range d1 (fun i P => for_range d2 (fun j P a i1 j1 b i2 j2 =>
              if (Nat.eqb i1 i && Nat.eqb j1 j) && (Nat.eqb i2 i && Nat.eqb j2 j)
              then entry Bx a b else P a i1 j1 b i2 j2) P) zero6 in
  let Py := for_range d0 (fun i P => for_range d2 (fun j P i1 a j1 i2 b j2 =>
              if (Nat.eqb i1 i && Nat.eqb j1 j) && (Nat.eqb i2 i && Nat.eqb j2 j)
              then entry By a b else P i1 a j1 i2 b j2) P) zero6 in
  let Pz := for_range d0 (fun i P => for_range d1 (fun j P i1 j1 a i2 j2 b =>
              if (Nat.eqb i1 i && Nat.eqb j1 j) && (Nat.eqb i2 i && Nat.eqb j2 j)
              then entry Bz a b else P i1 j1 a i2 j2 b) P) zero6 in
  let dim := (d0 * d1 * d2)%nat in
  let flat (P : nat -> nat -> nat -> nat -> nat -> nat -> R) (r c : nat) :=
    P (r / (d1 * d2))%nat ((r / d2) mod d1)%nat (r mod d2)%nat
      (c / (d1 * d2))%nat ((c / d2) mod d1)%nat (c mod d2)%nat in
  let Pxy r c := rsum dim (fun k => flat Px r k * flat Py k c) in
  Mat dim dim (fun r c => rsum dim (fun k => Pxy r k * flat Pz k c)).

(** 24-100 [B_prod(bases)], a basis being represented by its matrix; line 99 raises UnboundLocalError
    when there are neither one, two nor three of them.  (The slices are only assigned when the other
    axes are not empty; with an empty axis a matrix of a wrong shape would pass.) *)
Definition B_prod (bases : list mat) : res mat :=
  match bases with
  | [B] => Ok B
  | [Bx; By] => if fits_square Bx && fits_square By then Ok (b_prod_2 Bx By) else Err ExcValue
  | [Bx; By; Bz] =>
      if fits_square Bx && fits_square By && fits_square Bz then Ok (b_prod_3 Bx By Bz) else Err ExcValue
  | _ => Err ExcName
  end.

(** ** SparseTensor *)

(** 115-126: indices (natural numbers; numpy also refuses negative ones in [ravel_multi_index]), values, shape. *)
Record sparse : Type := Sparse { st_inds : list (list nat); st_vals : list R; st_shape : list nat }.

Fixpoint insideb (idx sh : list nat) : bool :=
  match idx, sh with
  | [], [] => true
  | i :: idx', d :: sh' => Nat.ltb i d && insideb idx' sh'
  | _, _ => false
  end.

(** 127-130 [lin_indices]: numpy's [ravel_multi_index] raises ValueError on an index outside of the shape. *)
Definition lin_indices (t : sparse) : res (list nat) :=
  map_res (fun idx => if insideb idx (st_shape t) then Ok (ravel (st_shape t) idx) else Err ExcValue) (st_inds t).

(** 132-136 [reshape]; [prod] of an empty shape raises TypeError (8-9). *)
Definition sp_reshape (t : sparse) (sh : list nat) : res sparse :=
  match sh, st_shape t with
  | [], _ => Err ExcType
  | _, [] => Err ExcType
  | _, _ =>
      if Nat.eqb (size sh) (size (st_shape t)) then
        bind (lin_indices t) (fun ks => Ok (Sparse (map (unravel sh) ks) (st_vals t) sh))
      else Err ExcAssert
  end.

(** scipy's [coo_matrix((data, (i, j)))] without a shape: inferred from the largest indices; no entry or
    different lengths raise ValueError. *)
Record coo : Type := Coo { coo_rows : nat; coo_cols : nat; coo_entries : list ((nat * nat) * R) }.
Definition coo_matrix (data : list R) (ij : list (nat * nat)) : res coo :=
  if Nat.eqb (List.length data) (List.length ij) then
    match ij with
    | [] => Err ExcValue
    | _ => Ok (Coo (S (list_max (map fst ij))) (S (list_max (map snd ij))) (combine ij data))
    end
  else Err ExcValue.

(** 138-152 [as_spmatrix(dims)]; the integer part of the square root is exact here. *)
Definition as_spmatrix (t : sparse) (dims : option (list nat)) : res coo :=
  bind (match dims with
        | None =>
            match st_shape t with
            | [] => Err ExcType
            | _ => let pp := size (st_shape t) in
                   let P := Nat.sqrt pp in
                   if Nat.eqb pp (P * P) then Ok [P; P] else Err ExcAssert
            end
        | Some d => if Nat.eqb (List.length d) 2 then Ok d else Err ExcAssert
        end) (fun d =>
  bind (sp_reshape t d) (fun m =>
  coo_matrix (st_vals m) (map (fun idx => (nth 0 idx 0%nat, nth 1 idx 0%nat)) (st_inds m)))).

(** scipy's [toarray]: entries stored several times are added. *)
Definition toarray (m : coo) : mat :=
  Mat (coo_rows m) (coo_cols m) (fun r c =>
    fold_right (fun e acc => if Nat.eqb (fst (fst e)) r && Nat.eqb (snd (fst e)) c then snd e + acc else acc)
      0 (coo_entries m)).

(** 154-155 [as_array(dims)]. *)
Definition as_array (t : sparse) (dims : option (list nat)) : res mat :=
  bind (as_spmatrix t dims) (fun m => Ok (toarray m)).

(** ** Jacobians as sparse tensors *)

Definition of_entries (l : list (list nat * R)) (sh : list nat) : sparse := Sparse (map fst l) (map snd l) sh.

(** 158-180 [dres_to_sparse]: the arrays are filled in the order of the loops. *)
Definition dres_to_sparse (n_m N n_x junk : nat) (dres : nat -> nat -> nat -> nat -> R) : res sparse :=
  if Nat.eqb n_x junk then
    Ok (of_entries
      (flat_map (fun i => flat_map (fun j => flat_map (fun k => map (fun l =>
         ([i; j; k; i; j; l], dres i j k l)) (seq 0 n_x)) (seq 0 n_x)) (seq 0 N)) (seq 0 n_m))
      [n_m; N; n_x; n_m; N; n_x])
  else Err ExcAssert.

(** 193-217 [jres_to_sparse]. *)
Definition jres_to_sparse (n_m N n_x a b : nat) (jres : nat -> nat -> nat -> nat -> nat -> R) : res sparse :=
  if Nat.eqb a n_m then if Nat.eqb b n_x then
    Ok (of_entries
      (flat_map (fun i => flat_map (fun j => flat_map (fun k => flat_map (fun l => map (fun m =>
         ([i; j; k; l; j; m], jres i j k l m)) (seq 0 n_x)) (seq 0 n_m)) (seq 0 n_x)) (seq 0 N)) (seq 0 n_m))
      [n_m; N; n_x; n_m; N; n_x])
  else Err ExcAssert else Err ExcAssert.

(** Arrays with axes (i, n, k, i', n', k') read as a matrix ([reshape((bigN, bigN))]). *)
Definition flat6 (N n_x : nat) (P : nat -> nat -> nat -> nat -> nat -> nat -> R) (r c : nat) : R :=
  P (r / (N * n_x))%nat ((r / n_x) mod N)%nat (r mod n_x)%nat
    (c / (N * n_x))%nat ((c / n_x) mod N)%nat (c mod n_x)%nat.

(** 332-343 [SmartJacobian.jac_1]. *)
Definition jac_1 (n_m N n_x : nat) (dres : nat -> nat -> nat -> nat -> R) : mat :=
  let P := for_range N (fun n P => for_range n_m (fun i P i1 n1 k i2 n2 l =>
             if (Nat.eqb i1 i && Nat.eqb n1 n) && (Nat.eqb i2 i && Nat.eqb n2 n)
             then dres i n k l else P i1 n1 k i2 n2 l) P) (fun _ _ _ _ _ _ => 0) in
  Mat (n_m * N * n_x) (n_m * N * n_x) (flat6 N n_x P).

(** 345-358 [SmartJacobian.j2_A]. *)
Definition j2_A (n_m N n_x : nat) (jres : nat -> nat -> nat -> nat -> nat -> R) : mat :=
  let P := for_range N (fun n P i1 n1 k i2 n2 l =>
             if Nat.eqb n1 n && Nat.eqb n2 n then jres i1 n k i2 l else P i1 n1 k i2 n2 l)
             (fun _ _ _ _ _ _ => 0) in
  Mat (n_m * N * n_x) (n_m * N * n_x) (flat6 N n_x P).

(** 103-112 and 183-190 [mult_AB(dres, jres)]: numpy's solver, page by page, the first failure raising. *)
Definition mult_AB (solve : nat -> (nat -> nat -> R) -> (nat -> R) -> res (nat -> R)) (n_m N n_x : nat)
    (dres : nat -> nat -> nat -> nat -> R) (jres : nat -> nat -> nat -> nat -> nat -> R)
  : res (nat -> nat -> nat -> nat -> nat -> R) :=
  for_range_res n_m (fun i out =>
    for_range_res n_m (fun j out =>
      for_range_res n_x (fun v out =>
        bind (for_range_res N (fun n sol =>
                bind (solve n_x (dres i n) (fun k => jres i n k j v)) (fun x => Ok (upd sol n x)))
                (fun _ _ => 0)) (fun sol =>
        Ok (fun i1 n k j1 v1 => if Nat.eqb i1 i && Nat.eqb j1 j && Nat.eqb v1 v then sol n k else out i1 n k j1 v1)))
        out) out) jres.

(** ** Names *)

(** Global names of bruteforce_lib.py at call time: those imported by invert.py (1-7) or defined in it and
    re-exported by line 1, those imported at lines 3-5, 12-21, 287-299 and 513-515, and the definitions. *)
Definition bruteforce_globals : list string :=
  ["jit"; "solve"; "zeros_like"; "guvectorize"; "float64"; "void"; "overload"; "numpy"; "swaplines_tensor";
   "swaplines_matrix"; "swaplines_vector"; "swaplines"; "substract_tensor"; "substract_matrix";
   "substract_vector"; "substract"; "divide_tensor"; "divide_matrix"; "divide_vector"; "divide"; "invert";
   "target"; "invert_gu"; "solve_gu"; "solve_tensor"; "solve_tensor_old"; "test_list_of_matrices";
   "serial_solve"; "mult_AB"; "test_list_of_arrays"; "mul"; "reduce"; "SerialDifferentiableFunction"; "prod";
   "sqrt"; "time"; "array"; "zeros"; "inv"; "abs"; "B_prod"; "SparseTensor"; "dres_to_sparse";
   "jres_to_sparse"; "compact_ddx"; "construct_j2"; "smul"; "smult"; "SmartJacobian"; "qzordered"; "np";
   "classical_perturbation"; "simple_max"; "newtonator"; "spectral_radius"]%string.

(** Global names (builtins and locals excluded) read by each entry point, in the order they are reached;
    for a method, followed by those of the methods it calls. *)
Definition get_filter_names : list string := ["UniformSplineBasis"; "TensorBase"; "B_prod"]%string.
Definition reads : list (string * list string) :=
  [ ("SmartJacobian.get_filter", get_filter_names);                                            (* 319-330 *)
    ("SmartJacobian.B", get_filter_names);                                                     (* 314-317 *)
    ("SmartJacobian.j2_B", ["numpy"; "tb"; "B"]);                                              (* 360-378 *)
    ("SmartJacobian.jac_2", app get_filter_names ["numpy"; "abs"]);                             (* 384-436 *)
    ("SmartJacobian.jac", "numpy" :: app get_filter_names ["numpy"; "abs"]);                    (* 443-445 *)
    ("SmartJacobian.solve", "numpy" :: app get_filter_names ["numpy"; "abs"]);                  (* 447-450 *)
    ("SmartJacobian.solve_sp", "numpy" :: app get_filter_names ["numpy"; "abs"]);               (* 452-458 *)
    ("SmartJacobian.solve_smart", ["invert_jac"]);                                             (* 462-487 *)
    ("SmartJacobian.solve_ind", ["numpy"; "tb"; "B"; "abs"]);                                  (* 489-509 *)
    ("compact_ddx", ["numpy"; "B"; "n_m"; "tb"; "SparseTensor"]);                              (* 220-252 *)
    ("construct_j2", ["n_m"; "n_x"; "SparseTensor"]);                                          (* 260-284 *)
    ("classical_perturbation", ["row_stack"; "column_stack"; "eye"; "zeros"; "qzordered"; "np"; "solve"]); (* 518-549 *)
    ("newtonator", ["numpy"; "n_x"; "n_s"; "inv"; "simple_max"; "abs"]);                       (* 565-625 *)
    ("spectral_radius", ["numpy"; "n_x"; "n_s"; "inv"; "abs"]);                                (* 628-668 *)
    ("B_prod", ["array"; "numpy"]);
    ("mult_AB", ["serial_solve"]);
    ("SparseTensor", ["numpy"; "prod"; "sqrt"; "SparseTensor"]);
    ("dres_to_sparse", ["SparseTensor"]);
    ("jres_to_sparse", ["SparseTensor"]);
    ("SmartJacobian.jac_1", ["numpy"]);
    ("SmartJacobian.j2_A", ["numpy"]) ]%string.

(** Python raises NameError at the first global that is not defined. *)
Definition missing_names (f : string) : list string :=
  match find (fun e => String.eqb (fst e) f) reads with
  | Some (_, l) => filter (fun n => negb (existsb (String.eqb n) bruteforce_globals)) l
  | None => []
  end.

(** ** The operator of improved time iteration *)

Section Operator.
  (** As in [d_filt_dx]: the rule [dumdr] and the sizes. *)
  Variable ev : tensor -> nat -> nat -> list R -> nat -> R.
  Variables n_m n_im N n_x : nat.
  Variable M : nat -> nat -> nat -> nat -> nat -> R.
  Variable fut : nat -> nat -> nat -> list R.

  (** 149-158 [Operator.apply(p)] (a copy of p is filtered). *)
  Definition op_apply (p : tensor) : tensor := d_filt_dx ev n_m n_im n_x M fut p.

  (** 141-147 [_matvec], [addid] telling whether the identity is included. *)
  Definition op_matvec (addid : bool) (x : nat -> R) : nat -> R :=
    let xx := unflatten N n_x x in
    let yy := op_apply xx in
    flatten N n_x (if addid then (fun i n k => xx i n k - yy i n k) else yy).

  (** 160-171 [as_matrix]: [larg] is a view of [arg], whose entry i-1 is reset before entry i is set. *)
  Definition op_as_matrix : mat :=
    let d := (n_m * N * n_x)%nat in
    let run := for_range d (fun i (st : (nat -> R) * (nat -> nat -> R)) =>
      let larg := if Nat.ltb 0 i then upd (fst st) (i - 1) 0 else fst st in
      let larg := upd larg i 1 in
      let col := flatten N n_x (op_apply (unflatten N n_x larg)) in
      (larg, fun r c => if Nat.eqb c i then col r else snd st r c)) (fun _ => 0, fun _ _ => 0) in
    Mat d d (snd run).

  (** 454-467, [invmethod="gmres"]: scipy's gmres, given the operator x -> x - L x and the right-hand
      side, returns a vector and a code that is not looked at. *)
  Definition gmres_step (gmres : ((nat -> R) -> nat -> R) -> (nat -> R) -> (nat -> R) * nat)
      (r : tensor) (dres : nat -> nat -> nat -> nat -> R) : res tensor :=
    bind (solve_pages n_m N n_x dres r) (fun ddx =>
    Ok (unflatten N n_x (fst (gmres (op_matvec true) (flatten N n_x ddx))))).

  (** 217: [norm2]. *)
  Definition norm2 (p : tensor) : R := sqrt (rsum (n_m * N * n_x) (fun q => flatten N n_x p q ^ 2)).

  (** 229-241: the loop of [radius_jac]: estimate, largest estimate and the list of estimates after
      [maxit] passes from the direction p and the estimate [lam].  A zero norm makes the next pass nan
      ([None]). *)
  Fixpoint radius_loop (maxit : nat) (p : tensor) (lam lam_max : R) : option (R * R * list R) :=
    match maxit with
    | O => Some (lam, lam_max, [])
    | S m =>
        if Req_EM_T lam 0 then None
        else
          let p' := op_apply (fun i n k => p i n k / lam) in
          let lam' := norm2 p' in
          match radius_loop m p' lam' (Rmax lam_max lam') with
          | Some (l, lm, ls) => Some (l, lm, lam' :: ls)
          | None => None
          end
    end.

  (** 207-242 [radius_jac], the random direction being the argument [draw]. *)
  Definition radius_jac (maxit : nat) (draw : tensor) : option (R * R * list R) :=
    if Req_EM_T (norm2 draw) 0 then None
    else radius_loop maxit (fun i n k => draw i n k / norm2 draw) 1 0.
End Operator.
