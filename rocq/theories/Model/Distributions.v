(** Discrete laws, discretisation of continuous laws and Gauss-Hermite nodes:
    dolo/numeric/distribution.py, dolo/numeric/discretization/quadrature.py. *)
From Coq Require Import String Reals List Arith.
From Verif.Base Require Import Prelude Sums Arrays Ext.
From Verif.Spec Require Import Product.
From Verif.Model Require Import Discretization Grids.
Import ListNotations.
Open Scope R_scope.

(* ------------------------------------------------------------------ *)
(** ** Discrete laws *)

(** distribution.py:142-187 (EquiprobableDistribution) and 192-249 (FiniteDistribution);
    [origin] is dropped. *)
Inductive iid : Type :=
| Equi (points : mat)
| Finite (points : mat) (weights : vec).

(** 201-215: the constructor asserts as many weights as points. *)
Definition finite_distribution (points : mat) (weights : vec) : res iid :=
  if Nat.eqb (vlen weights) (nrow points) then Ok (Finite points weights) else Err ExcAssert.

(** [points], [n], [d] (148-150, 209-211). *)
Definition iid_points (d : iid) : mat := match d with Equi p => p | Finite p _ => p end.
Definition iid_n (d : iid) : nat := nrow (iid_points d).
Definition iid_d (d : iid) : nat := ncol (iid_points d).
(** 161-163, 224-226. *)
Definition iid_point (d : iid) (i : nat) : list R := row (iid_points d) i.
(** 165-167, 228-230. *)
Definition iid_weight (d : iid) (i : nat) : R :=
  match d with Equi p => 1 / INR (nrow p) | Finite _ w => vget w i end.
(** 154-159 and the field [weights]. *)
Definition iid_weights (d : iid) : vec :=
  match d with Equi p => Vec (nrow p) (fun _ => 1 / INR (nrow p)) | Finite _ w => w end.

(** 130-139: [items] and [integrate]. *)
Definition iid_items (d : iid) : list (R * list R) :=
  map (fun i => (iid_weight d i, iid_point d i)) (seq 0 (iid_n d)).
Definition iid_integrate (d : iid) (f : list R -> R) : R :=
  fold_left (fun acc wx => acc + fst wx * f (snd wx)) (iid_items d) 0.

(** 174-181 and 232-249: [discretize(to="mc")]; a Markov chain is (values, transitions).
    [len(nodes)] rows, each equal to the weights. *)
Definition finite_to_mc (points : mat) (weights : vec) : chain :=
  (points, Mat (nrow points) (vlen weights) (fun _ j => vget weights j)).
Definition iid_to_mc (d : iid) : res chain :=
  match d with
  | Finite p w => Ok (finite_to_mc p w)
  | Equi p => bind (finite_distribution p (iid_weights d)) (fun f =>
                Ok (finite_to_mc (iid_points f) (iid_weights f)))
  end.

(** 275-298: Bernouilli. *)
Definition bernouilli_iid (pi : R) : res iid :=
  finite_distribution (Mat 2 1 (fun i _ => INR i))
                      (Vec 2 (fun i => if Nat.eqb i 0 then 1 - pi else pi)).
Definition bernouilli_mc (pi : R) : res chain := bind (bernouilli_iid pi) iid_to_mc.

(** 299-302: [np.random.choice([0,1], size=N)]; [rng k] is the k-th uniform draw in {0,1}. *)
Definition bernouilli_draw (pi : R) (rng : nat -> nat) (N : nat) : mat :=
  Mat N 1 (fun k _ => nth (rng k) [0; 1] 0).

(* ------------------------------------------------------------------ *)
(** ** Products and mixtures *)

(** numpy.kron of vectors. *)
Definition kron_vec (a b : vec) : vec :=
  Vec (vlen a * vlen b) (fun i => vget a (i / vlen b) * vget b (i mod vlen b)).

(** Row [r] of the concatenation (axis=1) of [f.points[cart[:, i], :]], 662-664. *)
Fixpoint product_row (iids : list iid) (i : nat) (cart : nat -> nat -> nat) (r : nat) : list R :=
  match iids with
  | [] => []
  | f :: rest => row (iid_points f) (cart r i) ++ product_row rest (S i) cart r
  end.

Definition sum_dims (iids : list iid) : nat := fold_right (fun f acc => iid_d f + acc)%nat 0%nat iids.

(** 654-669 (the later of the two identical definitions).  Laws have at least one point. *)
Definition product_iid (iids : list iid) : res iid :=
  match iids with
  | [] => Err ExcIndex
  | f0 :: rest =>
      let nn := map (fun f => vlen (iid_weights f)) iids in
      let cart := cartesian_into 0%nat (fun x => x) (length nn) (map (seq 0) nn) 0 (fun _ _ => 0%nat) in
      let nodes := Mat (prodn nn) (sum_dims iids)
                       (fun r k => nth k (product_row iids 0 cart r) 0) in
      let weights := fold_left (fun w f => kron_vec w (iid_weights f)) rest (iid_weights f0) in
      finite_distribution nodes weights
  end.

(** A 2-d array from a list of rows (np.concatenate of [e[None,:]], 747): ValueError when
    empty or ragged. *)
Definition mat_of_rows (l : list (list R)) : res mat :=
  match l with
  | [] => Err ExcValue
  | r0 :: _ =>
      if forallb (fun r => Nat.eqb (length r) (length r0)) l
      then Ok (Mat (length l) (length r0) (fun i j => nth j (nth i l []) 0))
      else Err ExcValue
  end.

(** 729-749: Mixture.discretize(to="iid").  [dists i] is the discretised law stored under
    the key str(i) (KeyError if absent). *)
Fixpoint mixture_items (index : iid) (dists : nat -> res iid) (n i : nat) : res (list (R * list R)) :=
  match n with
  | O => Ok []
  | S n' =>
      bind (dists i) (fun d =>
      bind (mixture_items index dists n' (S i)) (fun rest =>
      Ok (map (fun wx => (iid_weight index i * fst wx, snd wx)) (iid_items d) ++ rest)))
  end.
Definition mixture_iid (index : iid) (dists : nat -> res iid) : res iid :=
  bind (mixture_items index dists (iid_n index) 0) (fun items =>
  bind (mat_of_rows (map snd items)) (fun nodes =>
  finite_distribution nodes (Vec (length items) (fun i => nth i (map fst items) 0)))).

(** 759-765: Mixture.draw.  The keys are strings, and a number is never equal to a string,
    so every factor [inds == k] is false. *)
Inductive pykey : Type := KeyStr (s : string) | KeyNum (r : R).
Definition key_matches (value : R) (k : pykey) : R :=
  match k with
  | KeyStr _ => 0
  | KeyNum r => if Req_EM_T value r then 1 else 0
  end.
Definition mixture_draw (inds : nat -> R) (draws : list (pykey * (nat -> nat -> R))) : nat -> nat -> R :=
  fun n j => fold_left (fun acc kd => acc + key_matches (inds n) (fst kd) * snd kd n j) draws 0.

(* ------------------------------------------------------------------ *)
(** ** Univariate continuous laws *)

Inductive mass_point : Type := MPmedian | MPleft | MPmiddle | MPright | MPother.

(** 377-396: __discretize_ep__; [ppf] is the quantile function, assumed finite where it is
    evaluated.  With N=0 a division by N raises whatever the mass point. *)
Definition discretize_ep (ppf : R -> R) (N : nat) (mp : mass_point) : res iid :=
  let pts q := if Nat.eqb N 0 then Err ExcZeroDiv else Ok (Equi (Mat N 1 (fun i _ => q i))) in
  match mp with
  | MPmedian => pts (fun i => ppf (linspace (1 / 2 / INR N) (1 - 1 / 2 / INR N) N i))
  | MPleft => pts (fun i => ppf (linspace 0 (1 - 1 / INR N) N i))
  | MPmiddle => let q := fun i => ppf (linspace 0 1 (N + 1) i) in
                pts (fun i => 1 / 2 * (q (S i) + q i))
  | MPright => pts (fun i => ppf (linspace (1 / INR N) 1 N i))
  | MPother => Err (ExcGeneric "Not implemented")
  end.

Inductive method : Type := Mgh | Mep | Mother.
Inductive target : Type := ToIid | ToMc | ToGdp.

(** What discretize returns. *)
Inductive disc : Type := DIid (d : iid) | DChain (c : chain).

(** 343-375: with to="mc" the default options are used whatever the arguments. *)
Definition univariate_discretize (ppf : R -> R) (gh : nat -> res iid)
    (to : target) (N : nat) (m : method) (mp : mass_point) : res disc :=
  match to with
  | ToIid => match m with
             | Mgh => bind (gh N) (fun d => Ok (DIid d))
             | Mep => bind (discretize_ep ppf N mp) (fun d => Ok (DIid d))
             | Mother => Err (ExcGeneric "Unknown discretization method.")
             end
  | ToMc => bind (discretize_ep ppf 5 MPmedian) (fun d =>
            bind (iid_to_mc d) (fun c => Ok (DChain c)))
  | ToGdp => Err (ExcGeneric "Not implemented (yet).")
  end.

(** 467-469: scipy's uniform.ppf with loc=a, scale=b-a. *)
Definition uniform_ppf (a b q : R) : R := a + (b - a) * q.

(** 681-708: Truncation. *)
Definition trunc_min_q (cdf : R -> R) (lb : ext) : R := match lb with Fin l => cdf l | MInf => 0 | PInf => 1 end.
Definition trunc_max_q (cdf : R -> R) (ub : ext) : R := match ub with Fin u => cdf u | PInf => 1 | MInf => 0 end.
Definition trunc_ppf (cdf ppf : R -> R) (lb ub : ext) (p : R) : R :=
  let q_lb := trunc_min_q cdf lb in
  let q_ub := trunc_max_q cdf ub in
  ppf (q_lb + (q_ub - q_lb) * p).

(* ------------------------------------------------------------------ *)
(** ** Gauss-Hermite quadrature *)

(** quadrature.py:36-41: values (p1, p2) of the recurrence after [n] steps. *)
Definition herm_rec (n : nat) (z : R) : R * R :=
  for_range n (fun j p =>
    let '(p1, p2) := p in
    (z * sqrt (2 / (INR j + 1)) * p1 - sqrt (INR j / (INR j + 1)) * p2, p1))
    (1 / Rpower PI (1 / 4), 0).

(** 33-48: at most [maxit] Newton steps, stopping when a step is below 1e-14; the exception
    is raised when all of them are used, even if the last one converged.  A vanishing
    derivative gives inf/nan, which never satisfies the test and ends with the exception.
    Returns z and pp. *)
Fixpoint herm_newton (fuel n : nat) (z : R) : res (R * R) :=
  match fuel with
  | O => Err (ExcGeneric "Failure to converge")
  | S fuel' =>
      let '(p1, p2) := herm_rec n z in
      let pp := sqrt (2 * INR n) * p2 in
      if Req_EM_T pp 0 then Err (ExcGeneric "Failure to converge")
      else
        let z' := z - p1 / pp in
        if Rlt_dec (Rabs (z' - z)) (1 / 10 ^ 14)
        then match fuel' with O => Err (ExcGeneric "Failure to converge") | _ => Ok (z', pp) end
        else herm_newton fuel' n z'
  end.

(** 22-31: starting values; [z] is the previous root. *)
Definition herm_start (n i : nat) (z : R) (x : nat -> R) : R :=
  match i with
  | 0%nat => sqrt (2 * INR n + 1) - 185575 / 100000 * Rpower (2 * INR n + 1) (- (1 / 6))
  | 1%nat => z - 114 / 100 * Rpower (INR n) (426 / 1000) / z
  | 2%nat => 186 / 100 * z + 86 / 100 * x 0%nat
  | 3%nat => 191 / 100 * z + 91 / 100 * x 1%nat
  | _ => 2 * z + x (i - 2)%nat
  end.

(** 10-54; int(fix((n+1)/2)) is (n+1)/2 rounded down. *)
Definition hermgauss (n : nat) : res ((nat -> R) * (nat -> R)) :=
  let m := ((n + 1) / 2)%nat in
  bind (for_range_res m (fun i st =>
          let '(z, x, w) := st in
          bind (herm_newton 100 n (herm_start n i z x)) (fun zp =>
          let '(z', pp) := zp in
          let x1 := upd x (n - i - 1) z' in
          let x2 := upd x1 i (- z') in
          let w1 := upd w i (2 / pp ^ 2) in
          let w2 := upd w1 (n - i - 1) (w1 i) in
          Ok (z', x2, w2))) (0, (fun _ => 0), (fun _ => 0)))
       (fun st => let '(_, x, w) := st in Ok (x, w)).

(** 106-108, in place: unit variance for the columns whose sum is zero. *)
Definition patch_in_place (s : mat) : mat :=
  Mat (nrow s) (ncol s)
      (fun i j => if (Nat.eqb i j && Nat.ltb i (ncol s) && zero_column s i)%bool then 1 else mget s i j).

Section GaussHermite.
  (** [herm n]: nodes and weights of the one-dimensional rule (hermgauss above, or an exact
      rule); [chol]: numpy.linalg.cholesky, the lower factor. *)
  Variable herm : nat -> res ((nat -> R) * (nat -> R)).
  Variable chol : mat -> res mat.

  (** quadrature.py:85. *)
  Fixpoint herms (orders : list nat) : res (list (nat * ((nat -> R) * (nat -> R)))) :=
    match orders with
    | [] => Ok []
    | o :: os => bind (herm o) (fun h => bind (herms os) (fun l => Ok ((o, h) :: l)))
    end.

  (** 87-88. *)
  Definition gh_points (h : nat * ((nat -> R) * (nat -> R))) : list R :=
    map (fun i => fst (snd h) i * sqrt 2) (seq 0 (fst h)).
  Definition gh_weights (h : nat * ((nat -> R) * (nat -> R))) : vec :=
    Vec (fst h) (fun i => snd (snd h) i / sqrt PI).

  (** 57-119.  Returns the nodes (one per row), the weights and the matrix [sigma] as the
      caller finds it afterwards: lines 107-108 write into it.  [sigma] is 2-d. *)
  Definition gauss_hermite_nodes (orders : list nat) (sigma : mat) (mu : vec) : res (mat * vec * mat) :=
    bind (herms orders) (fun hs =>
    match hs with
    | [h] =>
        if (Nat.eqb (nrow sigma) 1 && Nat.eqb (ncol sigma) 1)%bool then
          if Rlt_dec (mget sigma 0%nat 0%nat) 0 then Err ResultNaN
          else Ok (Mat (fst h) 1 (fun i _ => nth i (gh_points h) 0 * sqrt (mget sigma 0%nat 0%nat)),
                   gh_weights h, sigma)
        else Err ExcType
    | [] => Err ExcIndex
    | h0 :: rest =>
        bind (cartesian false (map gh_points hs)) (fun x =>
        let w := fold_left (fun w h => kron_vec w (gh_weights h)) rest (gh_weights h0) in
        let sigma' := patch_in_place sigma in
        bind (chol sigma') (fun C =>
        if negb (Nat.eqb (ncol C) (length orders)) then Err ExcValue
        else if negb (Nat.eqb (vlen mu) (nrow C)) then Err ExcValue
        else Ok (Mat (nrow x) (nrow C)
                   (fun r i => if zero_column sigma i then 0
                               else rsum (ncol C) (fun j => mget C i j * mget x r j) + vget mu i),
                 w, sigma')))
    end).

  (** distribution.py:445-453: UNormal.__discretize_gh__, with N a list of orders or an int. *)
  Definition unormal_gh_orders (sigma mu : R) (orders : list nat) : res iid :=
    bind (gauss_hermite_nodes orders (Mat 1 1 (fun _ _ => sigma ^ 2)) (Vec 1 (fun _ => mu))) (fun xws =>
    let '(x, w, _) := xws in
    finite_distribution (Mat (nrow x) (ncol x) (fun i j => mget x i j + mu)) w).
  Definition unormal_gh (sigma mu : R) (N : nat) : res iid := unormal_gh_orders sigma mu [N].

  (** 561-622: Normal.  The object is its parameters; discretize also returns the object
      afterwards. *)
  Record normal : Type := { nm_Sigma : mat; nm_Mu : vec }.

  (** 596-609 with N a list of orders (an int N stands for [N]*d). *)
  Definition normal_discretize (self : normal) (orders : list nat) : res (iid * normal) :=
    bind (gauss_hermite_nodes orders (nm_Sigma self) (nm_Mu self)) (fun xws =>
    let '(x, w, sigma') := xws in
    bind (finite_distribution (Mat (nrow x) (ncol x) (fun i j => mget x i j + vget (nm_Mu self) j)) w)
         (fun d => Ok (d, {| nm_Sigma := sigma'; nm_Mu := nm_Mu self |}))).

  (** 611-613: to="mc" uses the default order 5 whatever N. *)
  Definition normal_discretize_mc (self : normal) : res (chain * normal) :=
    bind (normal_discretize self (repeat 5%nat (nrow (nm_Sigma self)))) (fun dn =>
    bind (iid_to_mc (fst dn)) (fun c => Ok (c, snd dn))).
End GaussHermite.
