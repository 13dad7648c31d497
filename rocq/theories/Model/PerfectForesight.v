(** Perfect foresight: dolo/algos/perfect_foresight.py.  Vectors are functions of an index, paths
    are functions of a row (date) and a column.  The gufuncs [g] (transition), [f] (arbitrage) and
    their derivatives are evaluated row by row at the calibrated parameters. *)
From Coq Require Import String Reals List Arith ZArith Lia Bool.
From Verif.Base Require Import Prelude Ext Arrays.
From Verif.Model Require Import Complementarity Newton SteadyState.
Import ListNotations.
Open Scope R_scope.

(** The forms of the argument [exogenous]: absent, dict (a DataFrame is first turned into one, lines
    18-19), array-like.  A 1-d or 2-d array is given by its entries in row-major order: line 43
    reshapes it anyway. *)
Inductive shocks_in : Type :=
| SNone
| SDict (d : list (string * list R))
| SArray (a : list R).

(** [k in d], [d[k]]. *)
Fixpoint dict_get {A} (k : string) (d : list (string * A)) : option A :=
  match d with
  | [] => None
  | (k', v) :: d' => if String.eqb k k' then Some v else dict_get k d'
  end.

(** perfect_foresight.py:28-30: one column of the dict branch. A series longer than [T+1] cannot be
    assigned (ValueError), [this_shock[-1]] of an empty one raises IndexError. *)
Definition dict_column (T : nat) (l : list R) : res (nat -> R) :=
  if Nat.ltb (T + 1) (length l) then Err ExcValue
  else match l with
       | [] => Err ExcIndex
       | _ => Ok (fun t => if Nat.ltb t (length l) then nth t l 0 else last l 0)
       end.

(** perfect_foresight.py:10-50 [_shocks_to_epsilons]; [names] are the exogenous symbols, [cal] their
    calibrated values.  The array branch (lines 36-48) drops the first row: row [t] of the result is
    row [t+1] of the array, then its last row. *)
Definition array_epsilons (n_e : nat) (a : list R) (T : nat) : res (nat -> nat -> R) :=
  if Nat.eqb n_e 0 then Err ExcValue                       (* cannot reshape into (-1, 0) *)
  else if negb (Nat.eqb (length a mod n_e) 0) then Err ExcValue
  else
    let k := (length a / n_e)%nat in
    if Nat.eqb k 0 then Err ExcValue                       (* epsilons[-1:] = shocks[-1:], empty *)
    else if Nat.ltb (T + 1) (k - 1) then Err ExcValue
    else Ok (fun t i => if Nat.ltb t (k - 1) then nth (S t * n_e + i) a 0
                        else nth ((k - 1) * n_e + i) a 0).

Definition shocks_to_epsilons (names : list string) (cal : nat -> R) (sh : shocks_in) (T : nat)
  : res (nat -> nat -> R) :=
  let n_e := length names in
  match sh with
  | SDict d =>
      for_range_res n_e (fun i eps =>
        match dict_get (nth i names EmptyString) d with
        | Some l => bind (dict_column T l) (fun col =>
                    Ok (fun t j => if Nat.eqb j i then col t else eps t j))
        | None => Ok (fun t j => if Nat.eqb j i then cal i else eps t j)
        end) (fun _ _ => 0)
  | SNone => array_epsilons n_e (map cal (seq 0 n_e)) T
  | SArray a => array_epsilons n_e a T
  end.

(** [a[r0:r1, c0:c1] = v]. *)
Definition set2 (a : nat -> nat -> R) (r0 r1 c0 c1 : nat) (v : nat -> nat -> R) : nat -> nat -> R :=
  fun i j => if (Nat.leb r0 i && Nat.ltb i r1) && (Nat.leb c0 j && Nat.ltb j c1)
             then v (i - r0)%nat (j - c0)%nat else a i j.

(** [a[i0, k0:k1, j0, l0:l1] = v]. *)
Definition set4 (a : nat -> nat -> nat -> nat -> R) (i0 k0 k1 j0 l0 l1 : nat) (v : nat -> nat -> R)
  : nat -> nat -> nat -> nat -> R :=
  fun i k j l =>
    if (Nat.eqb i i0 && Nat.eqb j j0) && ((Nat.leb k0 k && Nat.ltb k k1) && (Nat.leb l0 l && Nat.ltb l l1))
    then v (k - k0)%nat (l - l0)%nat else a i k j l.

(** [np.eye] *)
Definition eye (k l : nat) : R := if Nat.eqb k l then 1 else 0.

Definition vecR := nat -> R.

(** Arguments of [deterministic_solve] (lines 53-67) that matter for the result; [s0], [m0] already as
    vectors.  [d_guess]: rows, columns and entries of an array (a DataFrame is reduced to the columns
    of states and controls, lines 199-202). *)
Inductive pf_solver : Type := SNcpsolve | SLmmcp.
Record pf_args : Type := PfArgs {
  a_exogenous : shocks_in;
  a_s0 : option vecR;
  a_m0 : option vecR;
  a_T : nat;
  a_maxit : nat;
  a_tol : R;
  a_guess : option (nat * nat * (nat -> nat -> R));
  a_ignore : bool;
  a_solver : pf_solver;
  a_keep : bool }.

(** The same call with another initial guess, with other solver settings. *)
Definition with_guess (a : pf_args) (gs : option (nat * nat * (nat -> nat -> R))) : pf_args :=
  PfArgs (a_exogenous a) (a_s0 a) (a_m0 a) (a_T a) (a_maxit a) (a_tol a) gs (a_ignore a) (a_solver a) (a_keep a).
Definition with_settings (a : pf_args) (maxit : nat) (tol : R) : pf_args :=
  PfArgs (a_exogenous a) (a_s0 a) (a_m0 a) (a_T a) maxit tol (a_guess a) (a_ignore a) (a_solver a) (a_keep a).

(** What the returned DataFrame holds: date of its first row, number of rows, states and controls,
    exogenous values.  [o_warned]: whether the Newton solver issued its "did not converge" warning
    ([None] for lmmcp).  The table itself and its auxiliary variables: PfTable.v. *)
Record pf_out : Type := PfOut {
  o_first : Z;
  o_rows : nat;
  o_sol : nat -> nat -> R;
  o_eps : nat -> nat -> R;
  o_warned : option bool }.

(** [exogenous is not None]; a default value for an argument that is None. *)
Definition given (sh : shocks_in) : bool := match sh with SNone => false | _ => true end.
Definition opt {A} (o : option A) (d : A) : A := match o with Some a => a | None => d end.

Section PerfectForesight.
  Variables n_s n_x : nat.
  Variable g : vecR -> vecR -> vecR -> vecR -> vecR.
  Variable f : vecR -> vecR -> vecR -> vecR -> vecR -> vecR -> vecR.
  (** Derivatives returned with [diff=True]. *)
  Variables g_s g_x : vecR -> vecR -> vecR -> vecR -> nat -> nat -> R.
  Variables f_s f_x f_S f_X : vecR -> vecR -> vecR -> vecR -> vecR -> vecR -> nat -> nat -> R.

  (** perfect_foresight.py:336-340: states and controls of a row. *)
  Definition st (guess : nat -> nat -> R) (t : nat) : vecR := slice 0 n_s (guess t).
  Definition ct (guess : nat -> nat -> R) (t : nat) : vecR := slice n_s n_x (guess t).

  (** perfect_foresight.py:345-364: [res], by the same four assignments in the same order, for a guess
      of [N] rows. *)
  Definition det_res (N : nat) (guess : nat -> nat -> R) (start : vecR) (shocks : nat -> nat -> R)
    : nat -> nat -> R :=
    let m := shocks in
    let M := fun t => shocks (S t) in
    let s := st guess in
    let x := ct guess in
    let S_ := fun t => st guess (S t) in
    let X := fun t => ct guess (S t) in
    let SS := fun t => g (m t) (s t) (x t) (M t) in
    let R_ := fun t => f (m t) (s t) (x t) (M t) (S_ t) (X t) in
    let res0 := fun _ _ => 0 in
    let res1 := set2 res0 1 N 0 n_s (fun t k => SS t k - S_ t k) in
    let res2 := set2 res1 0 (N - 1) n_s (n_s + n_x) R_ in
    let res3 := set2 res2 0 1 0 n_s (fun _ k => - (guess 0%nat k - start k)) in
    set2 res3 (N - 1) N n_s (n_s + n_x)
         (fun _ k => - (guess (N - 1)%nat (n_s + k)%nat - guess (N - 2)%nat (n_s + k)%nat)).

  (** perfect_foresight.py:376-398: [jac], before it is reshaped. *)
  Definition det_jac (N : nat) (guess : nat -> nat -> R) (shocks : nat -> nat -> R)
    : nat -> nat -> nat -> nat -> R :=
    let m := shocks in
    let M := fun t => shocks (S t) in
    let s := st guess in
    let x := ct guess in
    let S_ := fun t => st guess (S t) in
    let X := fun t => ct guess (S t) in
    let n := (n_s + n_x)%nat in
    let jac :=
      for_range (N - 1) (fun i jac =>
        let jac := set4 jac i n_s n i 0 n_s (f_s (m i) (s i) (x i) (M i) (S_ i) (X i)) in
        let jac := set4 jac i n_s n i n_s n (f_x (m i) (s i) (x i) (M i) (S_ i) (X i)) in
        let jac := set4 jac i n_s n (i + 1) 0 n_s (f_S (m i) (s i) (x i) (M i) (S_ i) (X i)) in
        let jac := set4 jac i n_s n (i + 1) n_s n (f_X (m i) (s i) (x i) (M i) (S_ i) (X i)) in
        let jac := set4 jac (i + 1) 0 n_s i 0 n_s (g_s (m i) (s i) (x i) (M i)) in
        let jac := set4 jac (i + 1) 0 n_s i n_s n (g_x (m i) (s i) (x i) (M i)) in
        set4 jac (i + 1) 0 n_s (i + 1) 0 n_s (fun k l => - eye k l)) (fun _ _ _ _ => 0) in
    let jac := set4 jac 0 0 n_s 0 0 n_s (fun k l => - eye k l) in
    let jac := set4 jac (N - 1) n_s n (N - 1) n_s n (fun k l => - eye k l) in
    set4 jac (N - 1) n_s n (N - 2) n_s n (fun k l => eye k l).

  (** perfect_foresight.py:306-406 [det_residual] with [diff=True], before the final reshape of the two
      arrays.  [Nsh] is the number of rows of [shocks]; the gufuncs refuse different row counts (numpy
      would broadcast a two-row [shocks]; such a guess is refused later, line 297, so this is not
      modelled).  The parameter [final] is never used.  [guess[0]], [guess[-2]] raise on a guess of
      less than two rows. *)
  Definition det_residual (N Nsh : nat) (guess : nat -> nat -> R) (start : vecR) (shocks : nat -> nat -> R)
    : res ((nat -> nat -> R) * (nat -> nat -> nat -> nat -> R)) :=
    if negb (Nat.eqb N Nsh) then Err ExcValue
    else if Nat.ltb N 2 then Err ExcIndex
    else Ok (det_res N guess start shocks, det_jac N guess shocks).

  (** [ravel] of a path, [reshape(sh)] of a vector, [jac.reshape((nn, nn))] (lines 228-232, 396-398). *)
  Definition ravel {A} (p : nat -> nat -> A) : nat -> A :=
    fun q => p (q / (n_s + n_x))%nat (q mod (n_s + n_x))%nat.
  Definition reshape {A} (v : nat -> A) : nat -> nat -> A :=
    fun t k => v (t * (n_s + n_x) + k)%nat.
  Definition ravel4 (j : nat -> nat -> nat -> nat -> R) : nat -> nat -> R :=
    fun q r => j (q / (n_s + n_x))%nat (q mod (n_s + n_x))%nat (r / (n_s + n_x))%nat (r mod (n_s + n_x))%nat.

  (** perfect_foresight.py:227-230, 263-265: [ff].  The shapes have been checked by the call of line 225,
      so the call cannot raise. *)
  Definition ff (N : nat) (start : vecR) (shocks : nat -> nat -> R) (v : vecR)
    : vecR * (nat -> nat -> R) :=
    (ravel (det_res N (reshape v) start shocks), ravel4 (det_jac N (reshape v) shocks)).

  (** ** Bounds, lines 207-223 *)

  (** numpy's [max] and [min] of two floats that may be infinite. *)
  Definition emax (a b : ext) : ext :=
    match a, b with
    | PInf, _ | _, PInf => PInf
    | MInf, c | c, MInf => c
    | Fin r, Fin s => Fin (Rmax r s)
    end.
  Definition emin (a b : ext) : ext :=
    match a, b with
    | MInf, _ | _, MInf => MInf
    | PInf, c | c, PInf => c
    | Fin r, Fin s => Fin (Rmin r s)
    end.

  (** [b.max(axis=0) - b.min(axis=0)], entry [k], for [N >= 1] rows; inf - inf is nan. *)
  Definition spread (N : nat) (b : nat -> nat -> ext) (k : nat) : flt :=
    let col := map (fun t => b t k) (seq 1 (N - 1)) in
    flt_sub (flt_of_ext (fold_left emax col (b 0%nat k))) (flt_of_ext (fold_left emin col (b 0%nat k))).

  (** Comparison [a > b] of floats: false as soon as one is nan. *)
  Definition flt_gtb (a b : flt) : bool :=
    match a, b with
    | NaN, _ | _, NaN => false
    | Num r, Num s => if Rlt_dec s r then true else false
    | Inf true, Inf true => false
    | Inf true, _ => true
    | _, Inf false => match a with Inf false => false | _ => true end
    | _, _ => false
    end.

  (** Python's [max] of a non-empty sequence: keep the first, replace it by every later element that is
      greater. *)
  Definition py_max (h : flt) (l : list flt) : flt :=
    fold_left (fun cur e => if flt_gtb e cur then e else cur) l h.

  (** perfect_foresight.py:214-215: [max] of an empty sequence raises ValueError. *)
  Definition bound_test (N : nat) (b : nat -> nat -> ext) : res flt :=
    match map (spread N b) (seq 0 n_x) with
    | [] => Err ExcValue
    | h :: l => Ok (py_max h l)
    end.

  Definition bounds_msg : string :=
    "Not implemented: perfect foresight solution requires that controls have constant bounds."%string.

  (** perfect_foresight.py:210-219: the bounds of the stacked system; states are free. *)
  Definition stacked_bound (infinite : ext) (b : nat -> nat -> ext) : nat -> nat -> ext :=
    fun t k => if Nat.ltb k n_s then infinite else b t (k - n_s)%nat.

  Definition stacked_bounds (N : nat) (lb ub : nat -> nat -> ext)
    : res ((nat -> nat -> ext) * (nat -> nat -> ext)) :=
    bind (bound_test N lb) (fun test1 =>
    bind (bound_test N ub) (fun test2 =>
    if flt_gtb test1 (Num (/ 100000000)) || flt_gtb test2 (Num (/ 100000000))
    then Err (ExcGeneric bounds_msg)
    else Ok (stacked_bound MInf lb, stacked_bound PInf ub))).

  (** ** deterministic_solve *)

  (** The linear solver used by [newton], a real standing for nan, and the solver lmmcp, seen through its
      signature lmmcp.py:61 [lmmcp(fun, Dfun, x0, lb, ub, ...)]. *)
  Variable nan : R.
  Variable lsolve : (nat -> nat -> R) -> vecR -> res vecR.
  Variable lmmcp : (vecR -> vecR) -> (vecR -> nat -> nat -> R) ->
                   (nat -> ext) -> (nat -> ext) -> (nat -> ext) -> res vecR.

  (** The model: exogenous symbols, calibrated vectors, steady-state solver, bounds. *)
  Variable names : list string.
  Variables cal_m cal_s cal_x : vecR.
  Variable steady : vecR -> res (vecR * vecR).
  Variable x_bounds : option ((vecR -> vecR -> nat -> ext) * (vecR -> vecR -> nat -> ext)).

  (** perfect_foresight.py:162-187: the exogenous path, the initial point [(s0, x0)] and [s1].
      [epsilons[1, :]] raises IndexError when [T = 0]. *)
  Definition pf_start (a : pf_args) : res ((nat -> nat -> R) * (vecR * vecR) * vecR) :=
    bind (shocks_to_epsilons names cal_m (a_exogenous a) (a_T a)) (fun eps =>
    if given (a_exogenous a) then
      let m0 := eps 0%nat in
      bind (steady m0) (fun sx =>
      if Nat.eqb (a_T a) 0 then Err ExcIndex
      else Ok (eps, sx, g m0 (fst sx) (snd sx) (eps 1%nat)))
    else
      let s0 := opt (a_s0 a) cal_s in
      let m0 := opt (a_m0 a) cal_m in
      if Nat.eqb (a_T a) 0 then Err ExcIndex
      else Ok (eps, (s0, cal_x), g m0 s0 cal_x (eps 1%nat))).

  (** perfect_foresight.py:189-205: the starting path, its number of rows; a guess with too few columns
      is refused by the gufuncs. *)
  Definition pf_guess (a : pf_args) (s1 : vecR) : res (nat * (nat -> nat -> R)) :=
    match a_guess a with
    | None =>
        let start := concat n_s s1 cal_x in
        let final := concat n_s cal_s cal_x in
        Ok ((a_T a + 1)%nat,
            fun t k => let l := linspace 0 1 (a_T a + 1) t in start k * (1 - l) + final k * l)
    | Some (rows, cols, p) =>
        if Nat.ltb cols (n_s + n_x) then Err ExcValue
        else Ok ((rows - 1)%nat, fun t k => p (S t) k)
    end.

  (** perfect_foresight.py:274-283, 297-303. *)
  Definition pf_output (a : pf_args) (N : nat) (sx : vecR * vecR) (eps sol : nat -> nat -> R)
      (warned : option bool) : pf_out :=
    if given (a_exogenous a) && a_keep a then
      PfOut (-1) (S N)
            (fun t => match t with O => concat n_s (fst sx) (snd sx) | S t' => sol t' end)
            (fun t => match t with O => eps 0%nat | S t' => eps t' end) warned
    else PfOut 0 N sol eps warned.

  (** newton.py:84-94: default values used at line 271. *)
  Definition default_maxit : nat := 5.
  Definition default_tol : R := / 1000000.

  (** perfect_foresight.py:53-303 [deterministic_solve]. *)
  Definition deterministic_solve (a : pf_args) : res pf_out :=
    bind (pf_start a) (fun '(eps, sx, s1) =>
    bind (pf_guess a s1) (fun '(N, guess) =>
    let n := (N * (n_s + n_x))%nat in
    let check := det_residual N (a_T a + 1) guess s1 eps in
    let F := ff N s1 eps in
    match x_bounds, a_ignore a with
    | Some (lbf, ubf), false =>
        if negb (Nat.eqb N (a_T a + 1)) then Err ExcValue else
        bind (stacked_bounds N (fun t => lbf (eps t) (st guess t)) (fun t => ubf (eps t) (st guess t)))
             (fun '(lower, upper) =>
        bind check (fun _ =>
        match a_solver a with
        | SNcpsolve =>
            bind (ncpsolve nan n JSparse F lsolve (ravel lower) (ravel upper) (a_tol a) (a_maxit a)
                           (ravel guess)) (fun '(v, it, conv) =>
            Ok (pf_output a N sx eps (reshape v) (Some (negb conv))))
        | SLmmcp =>
            bind (lmmcp (fun u => fst (F u)) (fun u => snd (F u))
                        (ravel lower) (ravel upper) (fun q => Fin (ravel guess q))) (fun v =>
            Ok (pf_output a N sx eps (reshape v) None))
        end))
    | _, _ =>
        bind check (fun _ =>
        bind (newton n F lsolve default_tol default_maxit (ravel guess)) (fun '(v, it, conv) =>
        Ok (pf_output a N sx eps (reshape v) (Some (negb conv)))))
    end)).
End PerfectForesight.

(** A model: dimensions, functions and derivatives, exogenous symbols, calibration, steady-state solver,
    bounds on controls; and the outside solvers: linear systems, lmmcp, a real standing for nan. *)
Record pf_model : Type := PfModel {
  pm_ns : nat;
  pm_nx : nat;
  pm_g : vecR -> vecR -> vecR -> vecR -> vecR;
  pm_f : vecR -> vecR -> vecR -> vecR -> vecR -> vecR -> vecR;
  pm_g_s : vecR -> vecR -> vecR -> vecR -> nat -> nat -> R;
  pm_g_x : vecR -> vecR -> vecR -> vecR -> nat -> nat -> R;
  pm_f_s : vecR -> vecR -> vecR -> vecR -> vecR -> vecR -> nat -> nat -> R;
  pm_f_x : vecR -> vecR -> vecR -> vecR -> vecR -> vecR -> nat -> nat -> R;
  pm_f_S : vecR -> vecR -> vecR -> vecR -> vecR -> vecR -> nat -> nat -> R;
  pm_f_X : vecR -> vecR -> vecR -> vecR -> vecR -> vecR -> nat -> nat -> R;
  pm_names : list string;
  pm_m : vecR;
  pm_s : vecR;
  pm_x : vecR;
  pm_steady : vecR -> res (vecR * vecR);
  pm_bounds : option ((vecR -> vecR -> nat -> ext) * (vecR -> vecR -> nat -> ext)) }.

Record pf_solvers : Type := PfSolvers {
  ps_nan : R;
  ps_linear : (nat -> nat -> R) -> vecR -> res vecR;
  ps_lmmcp : (vecR -> vecR) -> (vecR -> nat -> nat -> R) ->
             (nat -> ext) -> (nat -> ext) -> (nat -> ext) -> res vecR }.

(** perfect_foresight.py:53-303: [deterministic_solve(model, ...)]. *)
Definition pf_solve (md : pf_model) (sv : pf_solvers) (a : pf_args) : res pf_out :=
  deterministic_solve (pm_ns md) (pm_nx md) (pm_g md) (pm_f md) (pm_g_s md) (pm_g_x md)
    (pm_f_s md) (pm_f_x md) (pm_f_S md) (pm_f_X md) (ps_nan sv) (ps_linear sv) (ps_lmmcp sv)
    (pm_names md) (pm_m md) (pm_s md) (pm_x md) (pm_steady md) (pm_bounds md) a.
