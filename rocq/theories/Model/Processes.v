(** Exogenous processes: dolo/numeric/processes.py. *)
From Coq Require Import String Reals List Arith.
From Verif.Base Require Import Prelude Sums Arrays.
From Verif.Model Require Import Discretization Grids Distributions.
Import ListNotations.
Open Scope R_scope.

(* ------------------------------------------------------------------ *)
(** ** Discretised processes *)

(** 147-155: n_inodes, iweight, inode (a node is its row). *)
Record dprocess : Type := { dp_n : nat -> nat; dp_weight : nat -> nat -> R; dp_node : nat -> nat -> list R }.

(** 157-169: iteritems, with its default eps = 1e-16. *)
Definition default_eps : R := 1 / 10 ^ 16.
Definition iteritems (p : dprocess) (eps : R) (i : nat) : list (R * list R) :=
  flat_map (fun j => if Rlt_dec eps (dp_weight p i j) then [(dp_weight p i j, dp_node p i j)] else [])
           (seq 0 (dp_n p i)).

(** 206-231: an i.i.d. law seen as a discretised process: the current node is ignored. *)
Definition iid_process (d : iid) : dprocess :=
  {| dp_n := fun _ => iid_n d; dp_weight := fun _ j => iid_weight d j; dp_node := fun _ j => iid_point d j |}.

(** 263-280: a Markov chain (values, transitions). *)
Definition mc_process (c : chain) : dprocess :=
  {| dp_n := fun _ => ncol (snd c); dp_weight := mget (snd c); dp_node := fun _ j => row (fst c) j |}.

(** 172-203: GDP; the arrays inodes (n x k x d) and iweights. *)
Record gdp : Type := { gdp_nodes : mat; gdp_k : nat; gdp_inodes : nat -> nat -> list R; gdp_iweights : nat -> nat -> R }.
Definition gdp_process (g : gdp) : dprocess :=
  {| dp_n := fun _ => gdp_k g; dp_weight := gdp_iweights g; dp_node := gdp_inodes g |}.

(** 249-258: MarkovChain.discretize(to="gdp"): the values are repeated for every node;
    the number of integration nodes is values.shape[0]. *)
Definition mc_to_gdp (c : chain) : gdp :=
  {| gdp_nodes := fst c; gdp_k := nrow (fst c); gdp_inodes := fun _ j => row (fst c) j;
     gdp_iweights := mget (snd c) |}.

(** 119-143: ConstantProcess.discretize. *)
Definition constant_iid (mu : vec) : res iid :=
  finite_distribution (Mat 1 (vlen mu) (fun _ j => vget mu j)) (Vec 1 (fun _ => 1)).
Definition constant_mc (mu : vec) (N : nat) : chain :=
  (Mat N (vlen mu) (fun _ j => vget mu j), Mat N N (fun i j => if Nat.eqb i j then 1 else 0)).

(* ------------------------------------------------------------------ *)
(** ** Simulation of Markov chains *)

(** 22-31: first index whose cumulated probability exceeds [x], [n] if there is none. *)
Fixpoint choice_loop (x : R) (cumul : nat -> R) (fuel i : nat) : nat :=
  match fuel with
  | O => i
  | S fuel' => if Rlt_dec x (cumul i) then i else choice_loop x cumul fuel' (S i)
  end.
Definition choice (x : R) (n : nat) (cumul : nat -> R) : nat := choice_loop x cumul n 0.

(** 34-46: [rand k] is the k-th random number; trajectories are simulated one after the
    other, each using T-1 numbers.  Compiled code does not check C[ii]; a state outside the
    matrix is an IndexError here.  T = 0 fails at out[0, :]. *)
Definition simulate_mc_indices (C : mat) (N T : nat) (i0 : nat -> nat) (rand : nat -> R)
  : res (nat -> nat -> nat) :=
  match T with
  | O => Err ExcIndex
  | S T1 =>
      let k := nrow C in
      for_range_res N (fun n out =>
        for_range_res T1 (fun t out =>
          let ii := out t n in
          if Nat.ltb ii k
          then Ok (upd2 out (S t) n (choice (rand (n * T1 + t)%nat) k (mget C ii)))
          else Err ExcIndex) out)
        (fun t n => match t with O => i0 n | S _ => 0%nat end)
  end.

(** numpy's cumsum(axis=1). *)
Definition cumsum_rows (P : mat) : mat := Mat (nrow P) (ncol P) (fun i j => rsum (S j) (mget P i)).

(** 49-62: with return_values=True, the unbound name Q is read for every index; without any
    index the concatenation of nothing fails. *)
Definition simulate_markov_chain (values transitions : mat) (N T : nat) (i0 : nat -> nat)
    (return_values : bool) (rand : nat -> R) : res (nat -> nat -> nat) :=
  bind (simulate_mc_indices (cumsum_rows transitions) N T i0 rand) (fun indices =>
  if return_values then (if Nat.eqb (T * N) 0 then Err ExcValue else Err ExcName) else Ok indices).

(** 282-290: MarkovChain.simulate: values[inds]; out-of-range indices are an IndexError. *)
Definition mc_simulate (c : chain) (N T i0 : nat) (stochastic : bool) (rand : nat -> R)
  : res (nat -> nat -> list R) :=
  bind (if stochastic then simulate_markov_chain (fst c) (snd c) N T (fun _ => i0) false rand
        else Ok (fun _ _ => i0)) (fun inds =>
  if forallb (fun t => forallb (fun n => Nat.ltb (inds t n) (nrow (fst c))) (seq 0 N)) (seq 0 T)
  then Ok (fun t n => row (fst c) (inds t n)) else Err ExcIndex).

(** 98-103: IIDProcess.response. *)
Definition iid_response (d T : nat) (impulse : vec) : res (nat -> nat -> R) :=
  if Nat.ltb 1 (T + 1)
  then Ok (fun t j => if Nat.eqb t 1 then vget impulse j else 0) else Err ExcIndex.

(* ------------------------------------------------------------------ *)
(** ** AR1 and VAR1 *)

(** A float or a 2-d array: AR1 keeps floats, VAR1 arrays. *)
Inductive pynum : Type := PyFloat (r : R) | PyMat (m : mat).
Inductive pyvec : Type := PyScalar (r : R) | PyVec (v : vec).

(** [rho @ v]: numpy's matmul refuses scalars (ValueError) and wrong dimensions. *)
Definition py_matmul (rho : pynum) (v : nat -> R) (d : nat) : res (nat -> R) :=
  match rho with
  | PyFloat _ => Err ExcValue
  | PyMat m => if Nat.eqb (ncol m) d
               then Ok (fun i => rsum (ncol m) (fun j => mget m i j * v j)) else Err ExcValue
  end.

(** [mu[None, :]]: a float is not subscriptable (TypeError). *)
Definition py_row (mu : pyvec) : res vec :=
  match mu with PyScalar _ => Err ExcType | PyVec v => Ok v end.

(** 481-493 (AR1.response) and 616-625 (VAR1.response); [impulse] has [d] entries. *)
Definition ar_response (rho : pynum) (mu : pyvec) (d T : nat) (impulse : vec) : res (nat -> nat -> R) :=
  match T with
  | O => Err ExcIndex
  | S T1 =>
      bind (for_range_res T1 (fun k irf =>
              bind (py_matmul rho (irf k) d) (fun v =>
              Ok (fun t j => if Nat.eqb t (S k) then v j else irf t j)))
            (fun t j => if Nat.eqb t 0 then vget impulse j else 0)) (fun irf =>
      bind (py_row mu) (fun m => Ok (fun t j => irf t j + vget m j)))
  end.

(** 497-523: the constructor turns a scalar or a vector of persistences into a matrix. *)
Inductive rho_arg : Type := RhoScalar (r : R) | RhoVector (v : vec) | RhoMatrix (m : mat).
Definition var1_rho (d : nat) (rho : rho_arg) : mat :=
  match rho with
  | RhoScalar r => Mat d d (fun i j => if Nat.eqb i j then r else 0)
  | RhoVector v => Mat (vlen v) (vlen v) (fun i j => if Nat.eqb i j then vget v i else 0)
  | RhoMatrix m => m
  end.
Record var1 : Type := { v_rho : mat; v_Sigma : mat; v_mu : vec }.
Definition make_var1 (rho : rho_arg) (Sigma : mat) (mu : option vec) : var1 :=
  {| v_rho := var1_rho (nrow Sigma) rho; v_Sigma := Sigma;
     v_mu := match mu with Some m => m | None => Vec (nrow Sigma) (fun _ => 0) end |}.

(** 616-625. *)
Definition var1_response (p : var1) (T : nat) (impulse : vec) : res (nat -> nat -> R) :=
  ar_response (PyMat (v_rho p)) (PyVec (v_mu p)) (nrow (v_Sigma p)) T impulse.
(** 373-386 and 481-493. *)
Definition ar1_response (rho sigma mu : R) (T : nat) (impulse : vec) : res (nat -> nat -> R) :=
  ar_response (PyFloat rho) (PyScalar mu) 1 T impulse.

(** 590-614: VAR1.simulate for one trajectory; [innov t] is the reshaped normal draw.
    stochastic=False indexes mu[None, len(mu)]: out of bounds. [rho] is d x d. *)
Definition var1_simulate (p : var1) (T : nat) (m0 : option vec) (stochastic : bool)
    (innov : nat -> nat -> R) : res (nat -> nat -> R) :=
  if negb stochastic then Err ExcIndex
  else match T with
  | O => Err ExcIndex
  | S T1 =>
      let d := nrow (v_Sigma p) in
      let start := match m0 with Some m => vget m | None => fun _ => 0 end in
      let sim := for_range T1 (fun k sim t j =>
                   if Nat.eqb t (S k)
                   then rsum d (fun l => sim k l * mget (v_rho p) j l) + innov (S k) j
                   else sim t j)
                 (fun t j => if Nat.eqb t 0 then start j else 0) in
      Ok (fun t j => sim t j + vget (v_mu p) j)
  end.

(** 456-479: AR1.simulate: the last statement reads the unbound name [μ]. *)
Definition ar1_simulate (rho sigma mu : R) (T : nat) (m0 : option vec) (stochastic : bool)
    (innov : nat -> nat -> R) : res (nat -> nat -> R) :=
  if negb stochastic then Err ExcIndex
  else match T with O => Err ExcIndex | S _ => Err ExcName end.

Section Discretize.
  (** scipy.linalg.cholesky. *)
  Variable chol : mat -> res mat.

  (** Line 533: abs(eye*rho[0,0] - rho).max() <= 1.  The except clause formats the unbound
      name rho_array, hence a NameError. *)
  Definition scalar_check (rho : mat) : bool :=
    forallb (fun i => forallb (fun j =>
      if Rle_dec (Rabs ((if Nat.eqb i j then mget rho 0%nat 0%nat else 0) - mget rho i j)) 1 then true else false)
      (seq 0 (ncol rho))) (seq 0 (nrow rho)).

  (** 527-548. *)
  Definition var1_discretize_mc (p : var1) (N : nat) : res chain :=
    if scalar_check (v_rho p) then
      bind (multidimensional_discretization chol (mget (v_rho p) 0%nat 0%nat) (v_Sigma p) N) (fun PQ =>
      Ok (Mat (nrow (fst PQ)) (ncol (fst PQ)) (fun k i => mget (fst PQ) k i + vget (v_mu p) i), snd PQ))
    else Err ExcName.

  (** 394-415: AR1 passes sigma itself as the covariance matrix. *)
  Definition ar1_discretize_mc (rho sigma mu : R) (N : nat) : res chain :=
    var1_discretize_mc {| v_rho := Mat 1 1 (fun _ _ => rho); v_Sigma := Mat 1 1 (fun _ _ => sigma);
                          v_mu := Vec 1 (fun _ => mu) |} N.
End Discretize.

(* ------------------------------------------------------------------ *)
(** ** Products of processes *)

(** What isinstance sees, and the method [discretize]; [K] is the type of keyword options. *)
Record process (K : Type) : Type := {
  is_markov_chain : bool; is_continuous : bool; is_iid : bool;
  p_discretize : target -> K -> res disc }.
Arguments is_markov_chain {K}.
Arguments is_continuous {K}.
Arguments is_iid {K}.
Arguments p_discretize {K}.

Section Product.
  Context {K : Type}.

  (** 311-323. *)
  Definition choose_target (l : list (process K)) : target :=
    if existsb (fun p => is_markov_chain p || is_continuous p)%bool l then ToMc
    else if forallb is_iid l then ToIid else ToGdp.

  (** 334-336: the factors are discretised in order; [kwargs] has the same length. *)
  Fixpoint discretize_all (to : target) (l : list (process K)) (kwargs : list K) : res (list disc) :=
    match l, kwargs with
    | [], _ => Ok []
    | p :: l', k :: ks => bind (p_discretize p to k) (fun d => bind (discretize_all to l' ks) (fun ds => Ok (d :: ds)))
    | _ :: _, [] => Err ExcIndex
    end.

  (** product_mc (358-364) reads .values and .transitions; product_iid reads .weights. *)
  Fixpoint as_chains (l : list disc) : res (list chain) :=
    match l with
    | [] => Ok []
    | DChain c :: l' => bind (as_chains l') (fun cs => Ok (c :: cs))
    | DIid _ :: _ => Err ExcAttribute
    end.
  Fixpoint as_iids (l : list disc) : res (list iid) :=
    match l with
    | [] => Ok []
    | DIid d :: l' => bind (as_iids l') (fun ds => Ok (d :: ds))
    | DChain _ :: _ => Err ExcAttribute
    end.

  Inductive options : Type := OptDict (k : K) | OptList (l : list K).

  (** 304-338. *)
  Definition product_discretize (l : list (process K)) (to : option target) (opts : options) : res disc :=
    let go kwargs :=
      let t := match to with Some t => t | None => choose_target l end in
      bind (discretize_all t l kwargs) (fun ds =>
      match t with
      | ToIid => bind (as_iids ds) (fun ds' => bind (product_iid ds') (fun d => Ok (DIid d)))
      | ToMc => bind (as_chains ds) (fun cs => bind (tensor_markov cs) (fun c => Ok (DChain c)))
      | ToGdp => Err (ExcGeneric "Not implemented")
      end) in
    match opts with
    | OptDict k => go (repeat k (length l))
    | OptList ks => if Nat.eqb (length ks) (length l) then go ks else Err ExcAssert
    end.
End Product.
