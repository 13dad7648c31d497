(** Draws from distributions (dolo/numeric/distribution.py) and simulation of i.i.d. and product processes
    (dolo/numeric/processes.py). *)
From Coq Require Import String Reals List Arith Bool.
From Verif.Base Require Import Prelude Sums Arrays Nda.
From Verif.Model Require Import Discretization Grids Distributions Processes.
Import ListNotations.
Open Scope R_scope.
Open Scope list_scope.

(** Laws a user builds.  [DNoDraw] stands for LogNormal, Beta (no method of their own, so that the one of
    Distribution, 78-83, raises) and Truncation (695-698, raises).  Mixture.draw is in Distributions.v. *)
Inductive dist : Type :=
| DEqui (points : mat)
| DFinite (points : mat) (weights : vec)
| DBernouilli (pi : R)
| DUNormal (sigma mu : R)
| DUniform (a b : R)
| DNormal (Sigma : mat) (Mu : vec)
| DProduct (l : list dist)
| DNoDraw.

(** The attribute [d] (150, 210, 328, 576, 640); Bernouilli has none, 1 is the number of columns of its draws. *)
Fixpoint dist_d (x : dist) : nat :=
  match x with
  | DEqui p | DFinite p _ => ncol p
  | DBernouilli _ | DUNormal _ _ | DUniform _ _ | DNoDraw => 1
  | DNormal Sg _ => nrow Sg
  | DProduct l => fold_right (fun y acc => dist_d y + acc)%nat 0%nat l
  end.

(** 637-641: the constructor of products reads the attribute [d] of each law. *)
Definition has_d (x : dist) : bool := match x with DBernouilli _ => false | _ => true end.

(** numpy's squeeze: axes of length one are dropped. *)
Definition squeeze (a : nda) : nda :=
  let sh := filter (fun n => negb (Nat.eqb n 1)) (shape a) in
  Nda sh (fun idx => at_ a (unravel (shape a) (ravel sh idx))).

Definition nda_of (n d : nat) (f : nat -> nat -> R) : nda :=
  Nda [n; d] (fun idx => f (nth 0 idx 0%nat) (nth 1 idx 0%nat)).

(** [np.concatenate(l, axis=1)] of 2-d arrays: everything else (other ranks, other numbers of rows,
    no array) is a ValueError. *)
Fixpoint hstack_cols (l : list nda) (i j : nat) : R :=
  match l with
  | [] => 0
  | a :: l' => let d := nth 1 (shape a) 0%nat in
               if Nat.ltb j d then at_ a [i; j] else hstack_cols l' i (j - d)
  end.
Definition rows_are (n : nat) (a : nda) : bool :=
  match shape a with [m; _] => Nat.eqb m n | _ => false end.
Definition concatenate1 (l : list nda) : res nda :=
  match l with
  | [] => Err ExcValue
  | a :: _ =>
      let n := nth 0 (shape a) 0%nat in
      if forallb (rows_are n) l
      then Ok (nda_of n (fold_right (fun a acc => nth 1 (shape a) 0 + acc)%nat 0%nat l) (hstack_cols l))
      else Err ExcValue
  end.

(** [np.concatenate(l, axis=2)] of arrays of shape (T, N, d); the second part of an array is its
    number of columns. *)
Record panel : Type := Panel { pa_T : nat; pa_N : nat; pa_d : nat; pa_at : nat -> nat -> nat -> R }.
Fixpoint panel_cols (l : list panel) (t n j : nat) : R :=
  match l with
  | [] => 0
  | a :: l' => if Nat.ltb j (pa_d a) then pa_at a t n j else panel_cols l' t n (j - pa_d a)
  end.
Definition concatenate2 (l : list panel) : res panel :=
  match l with
  | [] => Err ExcValue
  | a :: _ =>
      if forallb (fun b => Nat.eqb (pa_T b) (pa_T a) && Nat.eqb (pa_N b) (pa_N a)) l
      then Ok (Panel (pa_T a) (pa_N a) (fold_right (fun a acc => pa_d a + acc)%nat 0%nat l) (panel_cols l))
      else Err ExcValue
  end.

(** [draw(k).reshape((T, N, -1))] with k = T*N: an empty array cannot be given an unknown axis. *)
Definition reshape_panel (T N : nat) (a : nda) : res panel :=
  if Nat.eqb (T * N) 0 then Err ExcValue
  else if Nat.eqb (size (shape a) mod (T * N)) 0 then
    let d := (size (shape a) / (T * N))%nat in
    Ok (Panel T N d (fun t n j => at_ a (unravel (shape a) (ravel [T; N; d] [t; n; j]))))
  else Err ExcValue.

Section Draw.
  (** State of the random generators and what they return: numbers in [0, 1), integers below a bound,
      normal vectors of given mean and covariance, numbers of python's own generator (used by compiled
      simulations of chains). *)
  Variable rng : Type.
  Variable uniforms : nat -> rng -> (nat -> R) * rng.
  Variable integers : nat -> nat -> rng -> (nat -> nat) * rng.
  Variable normals : vec -> mat -> nat -> rng -> (nat -> nat -> R) * rng.
  Variable pyrand : nat -> rng -> (nat -> R) * rng.

  (** numpy.random.choice(range(n), size=N, p=w): the checks on w, then the inverse of the cumulated
      weights divided by their sum. *)
  Definition np_choice (n : nat) (w : vec) (N : nat) (r : rng) : res (nat -> nat) * rng :=
    if negb (Nat.eqb (vlen w) n) then (Err ExcValue, r)
    else if existsb (fun i => if Rlt_dec (vget w i) 0 then true else false) (seq 0 n) then (Err ExcValue, r)
    else if Rlt_dec (/ 2 ^ 26) (Rabs (rsum n (vget w) - 1)) then (Err ExcValue, r)
    else let (u, r') := uniforms N r in
         (Ok (fun k => choice (u k) n (fun i => rsum (S i) (vget w) / rsum n (vget w))), r').

  (** A list comprehension [[f(y) for y in l]] whose calls use the generators: in order, the first exception
      ending it. *)
  Definition in_turn {A B} (f : A -> rng -> res B * rng) : list A -> rng -> res (list B) * rng :=
    fix all l r :=
      match l with
      | [] => (Ok [], r)
      | y :: l' =>
          match f y r with
          | (Ok a, r1) => match all l' r1 with
                          | (Ok as_, r2) => (Ok (a :: as_), r2)
                          | (Err e, r2) => (Err e, r2)
                          end
          | (Err e, r1) => (Err e, r1)
          end
      end.

  (** [draw(N)] for each class. *)
  Fixpoint draw (x : dist) (N : nat) (r : rng) : res nda * rng :=
    match x with
    | DEqui p =>                                                        (* 169-173 *)
        if Nat.eqb (nrow p) 0 then (Err ExcValue, r)
        else let (i, r') := integers (nrow p) N r in (Ok (nda_of N (ncol p) (fun k j => mget p (i k) j)), r')
    | DFinite p w =>                                                    (* 217-222 *)
        match np_choice (nrow p) w N r with
        | (Ok i, r') => (Ok (nda_of N (ncol p) (fun k j => mget p (i k) j)), r')
        | (Err e, r') => (Err e, r')
        end
    | DBernouilli _ =>                                                  (* 299-302 *)
        let (i, r') := integers 2 N r in (Ok (nda_of N 1 (fun k _ => nth (i k) [0; 1] 0)), r')
    | DUNormal sigma mu =>                                              (* 418-425 *)
        let (z, r') := normals (Vec 1 (fun _ => mu)) (Mat 1 1 (fun _ _ => sigma ^ 2)) N r in
        (Ok (nda_of N 1 (fun k j => z k 0%nat)), r')
    | DUniform a b =>                                                   (* 476-480 *)
        let (u, r') := uniforms N r in (Ok (nda_of N 1 (fun k _ => a + (b - a) * u k)), r')
    | DNormal Sg m =>                                                   (* 587-594; scipy squeezes its answer *)
        let (z, r') := normals m Sg N r in
        let a := squeeze (nda_of N (nrow Sg) z) in
        (Ok (match shape a with
             | [n] => nda_of n 1 (fun k _ => at_ a [k])
             | _ => a
             end), r')
    | DProduct l =>                                                     (* 637-641, 649-651 *)
        if negb (forallb has_d l) then (Err ExcAttribute, r) else
        match in_turn (fun y => draw y N) l r with
        | (Ok as_, r') => (concatenate1 as_, r')
        | (Err e, r') => (Err e, r')
        end
    | DNoDraw => (Err (ExcGeneric "Not Implemented"), r)
    end.

  (** Processes that have a [simulate] method. *)
  Inductive proc : Type :=
  | PIid (x : dist) (names : list string)
  | PConstant (mu : vec)
  | PChain (c : chain)
  | PVar1 (p : var1)
  | PAr1 (rho sigma mu : R)
  | PProduct (l : list proc).

  (** 302-304: the constructor reads the attribute [d] of each process. *)
  Definition proc_has_d (x : proc) : bool := match x with PIid y _ => has_d y | _ => true end.

  (** processes.py:105-111 [IIDProcess.simulate]: the arguments i0, m0 and stochastic are not read; the
      labels of the third axis must be as many as its entries. *)
  Definition iid_simulate (x : dist) (names : list string) (N T : nat) (m0 : option (list R)) (stochastic : bool)
      (r : rng) : res panel * rng :=
    match draw x (T * N) r with
    | (Ok a, r') =>
        (bind (reshape_panel T N a) (fun s =>
         if Nat.eqb (List.length names) (pa_d s) then Ok s else Err ExcValue), r')
    | (Err e, r') => (Err e, r')
    end.

  (** 593-614 (VAR1) for N trajectories, with a starting point of d entries, the normal vectors being laid out date by date. *)
  Definition var1_panel (p : var1) (N T : nat) (m0 : option (list R)) (stochastic : bool) (r : rng) : res panel * rng :=
    let d := nrow (v_Sigma p) in
    let (z, r') := if stochastic then normals (Vec d (fun _ => 0)) (v_Sigma p) (N * T) r else ((fun _ _ => 0), r) in
    let start := match m0 with Some m => Some (Vec (List.length m) (fun j => nth j m 0)) | None => None end in
    let paths n := var1_simulate p T start stochastic (fun t j => z (t * N + n)%nat j) in
    (bind (paths 0%nat) (fun _ =>
     Ok (Panel T N d (fun t n j => match paths n with Ok f => f t j | Err _ => 0 end))), r').

  (** 282-290 (MarkovChain, i0 = 0): N*(T-1) numbers are drawn. *)
  Definition chain_panel (c : chain) (N T : nat) (stochastic : bool) (r : rng) : res panel * rng :=
    let (u, r') := if stochastic then pyrand (N * (T - 1)) r else ((fun _ => 0), r) in
    (bind (mc_simulate c N T 0 stochastic u) (fun f =>
     Ok (Panel T N (ncol (fst c)) (fun t n j => nth j (f t n) 0))), r').

  (** [p.simulate(N, T, m0=m0, stochastic=stochastic)].  AR1 raises whatever m0.  ConstantProcess has no [draw] (95-96 raises). *)
  Fixpoint simulate (x : proc) (N T : nat) (m0 : option (list R)) (stochastic : bool) (r : rng) : res panel * rng :=
    match x with
    | PIid y names => iid_simulate y names N T m0 stochastic r
    | PConstant _ => (Err (ExcGeneric "Not Implemented"), r)
    | PChain c => chain_panel c N T stochastic r
    | PVar1 p => var1_panel p N T m0 stochastic r
    | PAr1 rho sigma mu =>
        let (z, r') := if stochastic then normals (Vec 1 (fun _ => mu)) (Mat 1 1 (fun _ _ => sigma)) (N * T) r
                       else ((fun _ _ => 0), r) in
        (bind (ar1_simulate rho sigma mu T None stochastic (fun t j => z (t * N)%nat j)) (fun f =>
         Ok (Panel T N 1 (fun t _ j => f t j))), r')
    | PProduct l =>                                                     (* 302-304, 342-350 *)
        if negb (forallb proc_has_d l) then (Err ExcAttribute, r) else
        match m0 with
        | Some _ => (Err (ExcGeneric "Not implemented"), r)
        | None =>
            match in_turn (fun y => simulate y N T None stochastic) l r with
            | (Ok as_, r') => (concatenate2 as_, r')
            | (Err e, r') => (Err e, r')
            end
        end
    end.
End Draw.
