(** The call of [improved_time_iteration] with its options: dolo/algos/improved_time_iteration.py, lines
    249-538, on top of ImprovedTimeIteration.v and Bruteforce.v.  Printing and timings are left out. *)
From Coq Require Import String Reals List Arith Bool.
From Verif.Base Require Import Prelude Arrays Norms Ext.
From Verif.Model Require Import Grids Distributions Processes DecisionRule NumDiff TimeIteration TimeIterationCall
  ImprovedTimeIteration Bruteforce.
Import ListNotations.
Open Scope R_scope.

(** 252, 336-338: what is given as [dr0].  A rule with a method [eval_is], or an object without one: the
    result of an algorithm (results.py), a first-order rule (perturbation.py:65-107), a CustomDR. *)
Inductive start : Type :=
| NoStart
| StartRule (eval_is : nat -> list (list R) -> res points)
| StartOther.

(** 249-268: the options.  [mu] and [method] are never read. *)
Record iti_args : Type := ItiArgs {
  ia_dr0 : start;
  ia_details : bool;
  ia_ignore : bool;
  ia_method : string;
  ia_process : option dexo;
  ia_interp : string;
  ia_mu : R;
  ia_maxbsteps : nat;
  ia_tol : R;
  ia_smaxit : nat;
  ia_maxit : nat;
  ia_radius : bool;
  ia_invmethod : string;
  ia_compl : option bool }.

(** results.py:47-58 ImprovedTimeIterationResult without the rule; [id_L] is the method [apply] of the
    operator [L]; the radius is nan ([None]) unless it is wanted. *)
Record iti_details : Type := ItiDetails {
  id_N : nat;
  id_f_x : R;
  id_d_x : R;
  id_converged : bool;
  id_compl : bool;
  id_radius : option R;
  id_L : tensor -> tensor }.

Section Loop.
  Variable g : list R -> list R -> list R -> list R -> list R.
  Variable f : list R -> list R -> list R -> list R -> list R -> list R -> nat -> R.
  Variable exo : dexo.
  Variable s : list (list R).
  Variable n_x : nat.
  Variable interpolate : tensor -> nat -> nat -> list R -> list R.
  Variable lb ub : tensor_ext.
  Variable complementarities : bool.
  Variable nan : R.
  (** scipy.sparse.linalg.gmres(L, b, tol), which returns a vector and a code; it is assumed not to raise. *)
  Variable gmres : R -> ((nat -> R) -> nat -> R) -> (nat -> R) -> (nat -> R) * nat.

  Notation N := (length s).
  Notation n_m := (Nat.max (ex_n exo) 1).
  Notation n_im := (dp_n (ex_dp exo) 0).

  Let dres := iti_dres_c g f exo s n_x interpolate lb ub complementarities nan.
  Let jres := iti_jres_c g f exo s n_x interpolate lb ub complementarities nan.
  Let rs := iti_res g f exo s n_x interpolate lb ub complementarities nan.
  Let ev : tensor -> nat -> nat -> list R -> nat -> R := fun p i j S l => nth l (interpolate p i j S) 0.
  Let fut (x : tensor) i j n := nth n (next_states g exo s n_x x i j) [].

  (** 442-477: the operator and the Newton step.  Any other name than "gmres" means the series. *)
  Definition call_step (tol : R) (smaxit : nat) (invmethod : string) (x : tensor)
    : res (tensor * (nat -> nat -> nat -> nat -> nat -> R)) :=
    bind (premultiply n_m n_im N n_x (dres x) (jres x)) (fun J =>
    if String.eqb invmethod "gmres"
    then bind (gmres_step ev n_m n_im N n_x J (fut x) (gmres (tnorm n_m N n_x (rs x) / 100)) (rs x) (dres x))
              (fun tot => Ok (tot, J))
    else bind (invert_jac ev n_m n_im N n_x (rs x) (dres x) J (fut x) tol smaxit)
              (fun a => Ok (fst a, J))).

  (** 363-513, with what lines 527-538 read: the operator of the last pass. *)
  Fixpoint call_loop (tol : R) (maxbsteps smaxit : nat) (invmethod : string) (fuel it : nat) (x : tensor)
    : res (iti_result * (tensor -> tensor)) :=
    match fuel with
    | O => Err ExcName
    | S fuel' =>
        let err_0 := tnorm n_m N n_x (rs x) in
        bind (call_step tol smaxit invmethod x) (fun a =>
        let tot := fst a in
        match backsteps g f exo s n_x interpolate lb ub complementarities nan maxbsteps 0 err_0 x tot with
        | None => Err ExcName
        | Some new_x =>
            let out y c := ({| iti_x := y; iti_N := it; iti_f_x := err_0;
                               iti_d_x := tnorm n_m N n_x tot; iti_converged := c |},
                            op_apply ev n_m n_im n_x (snd a) (fut x)) in
            if Rlt_dec err_0 tol then Ok (out x true)
            else match fuel' with
                 | O => Ok (out new_x false)
                 | S _ => call_loop tol maxbsteps smaxit invmethod fuel' (S it) new_x
                 end
        end)
    end.
End Loop.

Section Call.
  (** As in TimeIterationCall.v. *)
  Variable spline : interp -> grid -> (nat -> nat -> R) -> list R -> list R.
  Variable spline_ms : interp -> grid -> grid -> tensor -> list R -> list R -> list R.
  Variable nan : R.
  Variable gmres : R -> ((nat -> R) -> nat -> R) -> (nat -> R) -> (nat -> R) * nat.
  (** 531-532: [abs(scipy.sparse.linalg.eigs(L, k=1)[0])], given the matrix-vector product and the size. *)
  Variable eigs : ((nat -> R) -> nat -> R) -> nat -> res R.

  (** 270-275. *)
  Definition iti_wants_bounds (a : iti_args) : bool :=
    match ia_compl a with Some b => b | None => negb (ia_ignore a) end.

  (** 327-338. *)
  Definition iti_initial (d : dexo) (s : list (list R)) (x0 : list R) (dr0 : start) : res tensor :=
    match dr0 with
    | NoStart => Ok (fun _ _ k => nth k x0 0)
    | StartRule e => fill_controls (Nat.max (ex_n d) 1) (length s) (length x0) (fun i => e i s)
    | StartOther => Err ExcAttribute
    end.

  (** 313-321. *)
  Definition iti_interp (name : string) : res interp :=
    if String.eqb name "cubic" then Ok Cubic
    else if String.eqb name "linear" then Ok Linear
    else Err (ExcGeneric "Unsupported interpolation method.").

  (** The whole call.  295-298: the functions "arbitrage_lb" and "arbitrage_ub" are looked up in any case.
      345-348: [dprocess.node(0)] raises without nodes.  [first_pass] (TimeIterationCall.v) is what the shape
      of the values raises, at line 339 or in the first pass; it is taken to be raised with maxit = 0 too (a
      simplification).  440: [abs(res).max()] raises on an empty array.  527: [dres] is not bound if there was no pass. *)
  Definition iti_call (md : ti_model) (a : iti_args) : res (solved_rule * option iti_details) :=
    let d := match ia_process a with Some d => d | None => tm_process md end in
    let s := endo_nodes (tm_endo_grid md) in
    let n_x := length (tm_x0 md) in
    let n_m := Nat.max (ex_n d) 1 in
    match tm_bounds md with
    | None => Err ExcKey
    | Some (lb, ub) =>
        bind (iti_interp (ia_interp a)) (fun k =>
        bind (iti_initial d s (tm_x0 md) (ia_dr0 a)) (fun c0 =>
        match first_pass k (tm_exo_grid md) (tm_endo_grid md) d with
        | Some e => Err e
        | None =>
            if Nat.eqb (ex_n d) 0 then Err ExcIndex
            else if Nat.eqb (ia_maxit a) 0 then
              if ia_details a then Err ExcName else Ok (snapshot md d k c0, None)
            else if Nat.eqb (n_m * length s * n_x) 0 then Err ExcValue
            else
              bind (call_loop (tm_g md) (tm_f md) d s n_x
                      (rule_ijs spline spline_ms k (tm_exo_grid md) (tm_endo_grid md) d)
                      (fun i n => lb (ex_node d i) (nth n s [])) (fun i n => ub (ex_node d i) (nth n s []))
                      (iti_wants_bounds a) nan gmres
                      (ia_tol a) (ia_maxbsteps a) (ia_smaxit a) (ia_invmethod a) (ia_maxit a) 0 c0) (fun b =>
              let r := fst b in
              let L := snd b in
              let rule := snapshot md d k (iti_x r) in
              if ia_details a then
                bind (if ia_radius a
                      then bind (eigs (fun x => flatten (length s) n_x (L (unflatten (length s) n_x x))) (n_m * length s * n_x))
                                (fun v => Ok (Some v))
                      else Ok None) (fun radius =>
                Ok (rule, Some (ItiDetails (iti_N r) (iti_f_x r) (iti_d_x r) (iti_converged r)
                                   (iti_wants_bounds a) radius L)))
              else Ok (rule, None))
        end))
    end.
End Call.
