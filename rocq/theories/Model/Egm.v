(** Endogenous grid method: dolo/algos/egm.py.  One state and one control (asserted at 24-27), so
    both are numbers; the compiled functions work row by row.  [a_grid] has N_a entries. *)
From Coq Require Import String Reals List Arith.
From Verif.Base Require Import Prelude Arrays Sums Norms Ext.
From Verif.Model Require Import Discretization Grids Distributions Processes TimeIteration.
Import ListNotations.
Open Scope R_scope.

(** egm.py:98-99: [np.minimum(x, u_)] then [np.maximum(x, l_)], with bounds that may be infinite;
    [None] is an infinite entry. *)
Definition ext_min (x : R) (u : ext) : ext := match u with PInf => Fin x | Fin r => Fin (Rmin x r) | MInf => MInf end.
Definition ext_max (x l : ext) : ext :=
  match x, l with
  | PInf, _ | _, PInf => PInf
  | MInf, l => l
  | x, MInf => x
  | Fin a, Fin b => Fin (Rmax a b)
  end.
Definition egm_clamp (l u : ext) (x : R) : option R :=
  match ext_max (ext_min x u) l with Fin r => Some r | _ => None end.

(** egm.py:138. *)
Record egm_result : Type := {
  egm_values : nat -> nat -> R;      (* node values given to the returned rule *)
  egm_it : nat;
  egm_converged : bool;
  egm_eta : R
}.

Section Egm.
  Variable exo : dexo.
  Variable is_iid : bool.
  Variable s : list R.                                        (* nodes of the endogenous grid *)
  Variable a : nat -> R.
  Variable N_a n_h : nat.
  Variable h : list R -> R -> R -> nat -> R.                  (* expectation(M, S, X) *)
  Variable gt : list R -> R -> list R -> R.                   (* half_transition(m, a, M) *)
  Variable tau : list R -> R -> list R -> R.                  (* direct_response_egm(m, a, z) *)
  Variable atau : list R -> R -> R -> R.                      (* reverse_state(m, a, x) *)
  Variable lb ub : list R -> R -> ext.                        (* arbitrage_lb, arbitrage_ub *)
  Variable dr0 : nat -> R -> R.
  (** [eval_linear((p,), v, .)] at one point. *)
  Variable eval_linear : (nat -> R) -> (nat -> R) -> R -> R.
  Variable nan : R.

  (** egm.py:91-100 [drfut], at one point; the closure reads [sa0], [xa0] when it is called. *)
  Definition drfut (sa0 xa0 : nat -> nat -> R) (i : nat) (ss : R) : R :=
    let i := if is_iid then 0%nat else i in
    let m := ex_node exo i in
    match egm_clamp (lb m ss) (ub m ss) (eval_linear (sa0 i) (xa0 i) ss) with Some x => x | None => nan end.

  (** egm.py:86-100: the rule in force in iteration [it]. *)
  Definition rule (it : nat) (sa0 xa0 : nat -> nat -> R) : nat -> R -> R :=
    match it with O => dr0 | S _ => drfut sa0 xa0 end.

  (** egm.py:102-112: [z[i_m, p, k]]. *)
  Definition egm_z (dr : nat -> R -> R) (i p k : nat) : R :=
    let m := ex_node exo i in
    for_range (dp_n (ex_dp exo) i) (fun j z =>
      let M := dp_node (ex_dp exo) i j in
      let S := gt m (a p) M in
      z + dp_weight (ex_dp exo) i j * h M S (dr j S) k) 0.

  (** egm.py:113-114. *)
  Definition egm_xa (dr : nat -> R -> R) (i p : nat) : R :=
    tau (ex_node exo i) (a p) (map (egm_z dr i p) (seq 0 n_h)).
  Definition egm_sa (dr : nat -> R -> R) (i p : nat) : R :=
    atau (ex_node exo i) (a p) (egm_xa dr i p).

  (** [abs(x - y).max()]. *)
  Definition egm_dist (x y : nat -> nat -> R) : R :=
    supnorm (ex_n exo * N_a) (fun q => x (q / N_a)%nat (q mod N_a)%nat - y (q / N_a)%nat (q mod N_a)%nat).

  (** egm.py:116-119. *)
  Definition egm_error (it : nat) (xa xa0 sa sa0 : nat -> nat -> R) : R :=
    if Nat.ltb 1 it then egm_dist xa xa0 + egm_dist sa sa0 else 1.

  (** egm.py:84-138, [fuel] = maxit - it; the rule returned is the last [drfut], which reads the final
      [sa0], [xa0].  Line 134 raises NameError when maxit = 0. *)
  Fixpoint egm_loop (tol : R) (fuel it : nat) (sa0 xa0 : nat -> nat -> R) : res egm_result :=
    match fuel with
    | O => Err ExcName
    | S fuel' =>
        let dr := rule it sa0 xa0 in
        let xa := egm_xa dr in
        let sa := egm_sa dr in
        let e := egm_error it xa xa0 sa sa0 in
        if Rlt_dec e tol then
          Ok {| egm_values := fun i n => rule it sa0 xa0 i (nth n s 0); egm_it := it; egm_converged := true; egm_eta := e |}
        else match fuel' with
             | O => Ok {| egm_values := fun i n => rule it sa xa i (nth n s 0); egm_it := it; egm_converged := false; egm_eta := e |}
             | S _ => egm_loop tol fuel' (S it) sa xa
             end
    end.

  (** egm.py:9-140, with grid and dp given; [abs(...).max()] raises ValueError on an empty array (117,
      reached from the third iteration on). *)
  Definition egm (a_grid_given : bool) (tol : R) (maxit : nat) : res egm_result :=
    if a_grid_given then
      if andb (Nat.eqb (ex_n exo * N_a) 0) (andb (Nat.ltb 2 maxit) (if Rlt_dec 1 tol then false else true)) then Err ExcValue
      else egm_loop tol maxit 0 (fun _ _ => 0) (fun _ _ => 0)
    else Err (ExcGeneric "You must supply a grid for the post-states.").
End Egm.
