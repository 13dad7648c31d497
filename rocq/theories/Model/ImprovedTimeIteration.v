(** Improved time iteration: dolo/algos/improved_time_iteration.py.  Same conventions as
    TimeIteration.v. *)
From Coq Require Import String Reals List Arith.
From Verif.Base Require Import Prelude Arrays Sums Norms Ext.
From Verif.Model Require Import Discretization Grids Distributions Processes DecisionRule Complementarity LinearSolve
  NumDiff TimeIteration.
Import ListNotations.
Open Scope R_scope.

(** improved_time_iteration.py:541-602 with [with_jres=False].  [max(n_nodes, 1)] states and the
    number of integration nodes of the first one. *)
Definition euler_residuals
    (g : list R -> list R -> list R -> list R -> list R)
    (f : list R -> list R -> list R -> list R -> list R -> list R -> nat -> R)
    (exo : dexo) (s : list (list R)) (n_x : nat)
    (dr : nat -> nat -> list (list R) -> res (list (list R))) (x : tensor) : res tensor :=
  for_range_res (Nat.max (ex_n exo) 1) (fun i acc =>
    if Nat.ltb i (ex_n exo) then
      for_range_res (dp_n (ex_dp exo) 0) (fun j acc =>
        bind (dr i j (next_states g exo s n_x x i j)) (fun XM => accumulate g f exo s n_x x i j XM acc)) acc
    else Err ExcIndex)
    (fun _ _ _ => 0).

(** [x - lb] and [ub - x] with bounds that may be infinite. *)
Definition above (x : R) (lb : ext) : ext :=
  match lb with MInf => PInf | Fin r => Fin (x - r) | PInf => MInf end.
Definition below (ub : ext) (x : R) : ext :=
  match ub with MInf => MInf | Fin r => Fin (r - x) | PInf => PInf end.

(** 489-491: one entry of the residual with complementarities (its sign does not matter there). *)
Definition iti_value (lb ub : ext) (x r : R) : option R :=
  match iti_smooth r (above x lb) with
  | None => None
  | Some h => iti_smooth (- h) (below ub x)
  end.

(** 431-438: one entry of the value; factor multiplying the rows of dres and jres; term added to the
    diagonal of dres.  [None] is nan. *)
Definition iti_smoothed (lb ub : ext) (x r : R) : option R :=
  match iti_value lb ub x r with None => None | Some h => Some (- h) end.
Definition iti_factors (lb ub : ext) (x r : R) : option (R * R) :=
  match iti_smooth r (above x lb), iti_coefs r (above x lb) with
  | Some h, Some (a1, b1) =>
      match iti_coefs (- h) (below ub x) with
      | Some (a2, b2) => Some (a2 * a1, a2 * b1 + b2)
      | None => None
      end
  | _, _ => None
  end.

(** 76-86 [ssmul], one entry. *)
Definition ssmul (b : nat) (A : nat -> nat -> nat -> R) (B : nat -> nat -> R) (n k : nat) : R :=
  for_range b (fun l o => o + A n k l * B n l) 0.

(** 103-116 [d_filt_dx].  [ev p i j S l] is entry l of [dumdr.set_values(p); dumdr.eval_ijs(i, j, S)];
    the coefficients are copies, so writing in place into p does not disturb them. *)
Definition d_filt_dx (ev : tensor -> nat -> nat -> list R -> nat -> R)
    (n_m n_im n_x : nat) (M : nat -> nat -> nat -> nat -> nat -> R) (S : nat -> nat -> nat -> list R)
    (p : tensor) : tensor :=
  for_range n_m (fun i q =>
    for_range n_im (fun j q =>
      fun i' n k => if Nat.eqb i' i
                    then q i' n k + ssmul n_x (M i j) (fun n l => ev p i j (S i j n) l) n k
                    else q i' n k)
      (fun i' n k => if Nat.eqb i' i then 0 else q i' n k)) p.

(** A computation on every page (i, n), which may raise. *)
Definition all_pages {A} (n_m N : nat) (page : nat -> nat -> res A) (d : A) : res (nat -> nat -> A) :=
  for_range_res n_m (fun i acc =>
    for_range_res N (fun n acc => bind (page i n) (fun a => Ok (upd2 acc i n a))) acc)
    (fun _ _ => d).

Definition pages1 {A} (N : nat) (page : nat -> res A) (d : A) : res (nat -> A) :=
  for_range_res N (fun n acc => bind (page n) (fun a => Ok (upd acc n a))) (fun _ => d).
Definition zero2 : nat -> nat -> R := fun _ _ => 0.

(** 181, invert.py:187-197: [solve_gu(dres.copy(), res.copy())]. *)
Definition solve_pages (n_m N n_x : nat) (dres : nat -> nat -> nat -> nat -> R) (r : tensor) : res tensor :=
  bind (all_pages n_m N (fun i n => invert n_x RVec (dres i n) (fun k _ => r i n k)) (zero2, zero2)) (fun a =>
  Ok (fun i n k => snd (a i n) k 0%nat)).

(** 443-449: [jres *= -1], then every page is premultiplied by the inverse of [dres]
    (invert.py:200-209 [solve_tensor], in place). *)
Definition premultiply (n_m n_im N n_x : nat) (dres : nat -> nat -> nat -> nat -> R)
    (jres : nat -> nat -> nat -> nat -> nat -> R) : res (nat -> nat -> nat -> nat -> nat -> R) :=
  bind (all_pages n_m n_im (fun i j =>
          pages1 N (fun n => invert n_x (RMat n_x) (dres i n) (fun k l => - jres i j n k l)) (zero2, zero2))
          (fun _ => (zero2, zero2))) (fun a =>
  Ok (fun i j n k l => snd (a i j n) k l)).

(** [abs(x).max()]. *)
Definition tnorm (n_m N n_x : nat) (x : tensor) : R := supnorm (n_m * N * n_x) (flatten N n_x x).

(** 187-201: the loop of [invert_jac]; [None] when the body never runs.  The ratio [lam] is only
    printed and is left out. *)
Fixpoint neumann (n_m N n_x : nat) (L : tensor -> tensor) (tol : R) (fuel nn : nat) (ddx tot : tensor)
  : option (tensor * nat) :=
  match fuel with
  | O => None
  | S fuel' =>
      let ddx' := L ddx in
      let tot' : tensor := fun i n k => tot i n k + ddx' i n k in
      if Rlt_dec (tnorm n_m N n_x ddx') tol then Some (tot', nn)
      else match fuel' with
           | O => Some (tot', nn)
           | S _ => neumann n_m N n_x L tol fuel' (S nn) ddx' tot'
           end
  end.

(** 174-204 [invert_jac]; line 204 raises UnboundLocalError when maxit = 0. *)
Definition invert_jac (ev : tensor -> nat -> nat -> list R -> nat -> R) (n_m n_im N n_x : nat)
    (r : tensor) (dres : nat -> nat -> nat -> nat -> R) (jres : nat -> nat -> nat -> nat -> nat -> R)
    (fut_S : nat -> nat -> nat -> list R) (tol : R) (maxit : nat) : res (tensor * nat) :=
  bind (solve_pages n_m N n_x dres r) (fun ddx =>
  match neumann n_m N n_x (d_filt_dx ev n_m n_im n_x jres fut_S) tol maxit 0 ddx ddx with
  | Some a => Ok a
  | None => Err ExcName
  end).

Record iti_result : Type := {
  iti_x : tensor;            (* values of the returned rule *)
  iti_N : nat;
  iti_f_x : R;
  iti_d_x : R;
  iti_converged : bool
}.

(** [x[:, :, l] += h]. *)
Definition shift_control (x : tensor) (l : nat) (h : R) : tensor :=
  fun i n k => if Nat.eqb k l then x i n k + h else x i n k.
Definition shift_list (n_x : nat) (X : list R) (l : nat) (h : R) : list R :=
  map (fun k => if Nat.eqb k l then nth k X 0 + h else nth k X 0) (seq 0 n_x).
Definition orn (nan : R) (o : option R) : R := match o with Some v => v | None => nan end.

Section ITI.
  Variable g : list R -> list R -> list R -> list R -> list R.
  Variable f : list R -> list R -> list R -> list R -> list R -> list R -> nat -> R.
  Variable exo : dexo.
  Variable s : list (list R).
  Variable n_x : nat.
  (** [ddr.set_values(x); ddr.eval_ijs(i, j, .)], one point. *)
  Variable interpolate : tensor -> nat -> nat -> list R -> list R.
  Variable lb ub : tensor_ext.
  Variable complementarities : bool.
  Variable nan : R.

  Notation dp := (ex_dp exo).
  Notation N := (length s).
  Notation node n := (nth n s []).
  Notation n_m := (Nat.max (ex_n exo) 1).
  Notation n_im := (dp_n dp 0).

  (** 541-602 (with_jres=False) for a rule that evaluates point by point and never raises. *)
  Definition euler_total (dr : nat -> nat -> list R -> list R) (x : tensor) : tensor :=
    for_range n_m (fun i acc =>
      for_range n_im (fun j acc =>
        fun i' n k =>
          if Nat.eqb i' i then
            acc i' n k + dp_weight dp i j *
              f (ex_node exo i) (node n) (at_node n_x x i n) (dp_node dp i j)
                (nth n (next_states g exo s n_x x i j) [])
                (dr i j (nth n (next_states g exo s n_x x i j) [])) k
          else acc i' n k) acc)
      (fun _ _ _ => 0).

  (** 397-413: derivatives with respect to x, the rule being fixed (newton.py:167-190). *)
  Definition iti_dres (x : tensor) (i n k l : nat) : R :=
    let F := euler_total (interpolate x) in
    (F (shift_control x l serial_eps) i n k - F x i n k) / serial_eps.

  (** 585-591: derivatives with respect to the future controls. *)
  Definition iti_jres (x : tensor) (i j n k l : nat) : R :=
    let S := nth n (next_states g exo s n_x x i j) [] in
    let X := interpolate x i j S in
    let F := fun X => f (ex_node exo i) (node n) (at_node n_x x i n) (dp_node dp i j) S X k in
    dp_weight dp i j * ((F (shift_list n_x X l serial_eps) - F X) / serial_eps).

  (** 430-438. *)
  Definition iti_res (x : tensor) : tensor := fun i n k =>
    let r := euler_total (interpolate x) x i n k in
    if complementarities then orn nan (iti_smoothed (lb i n k) (ub i n k) (x i n k) r) else r.

  Definition iti_row_factors (x : tensor) (i n k : nat) : R * R :=
    if complementarities then
      match iti_factors (lb i n k) (ub i n k) (x i n k) (euler_total (interpolate x) x i n k) with
      | Some p => p
      | None => (nan, nan)
      end
    else (1, 0).

  Definition iti_dres_c (x : tensor) (i n k l : nat) : R :=
    fst (iti_row_factors x i n k) * iti_dres x i n k l +
    (if Nat.eqb k l then snd (iti_row_factors x i n k) else 0).
  Definition iti_jres_c (x : tensor) (i j n k l : nat) : R :=
    fst (iti_row_factors x i n k) * iti_jres x i j n k l.

  (** 485-493: the error at a trial point, the rule being set to it. *)
  Definition trial_err (x : tensor) : R :=
    tnorm n_m N n_x (fun i n k =>
      let r := euler_total (interpolate x) x i n k in
      if complementarities then orn nan (iti_value (lb i n k) (ub i n k) (x i n k) r) else r).

  (** 483-495: after the last allowed step the last trial is kept whatever its error. *)
  Fixpoint backsteps (fuel b : nat) (err_0 : R) (x tot : tensor) : option tensor :=
    match fuel with
    | O => None
    | S fuel' =>
        let new_x : tensor := fun i n k => x i n k - tot i n k * (/ 2) ^ b in
        if Rlt_dec (trial_err new_x) err_0 then Some new_x
        else match fuel' with O => Some new_x | S _ => backsteps fuel' (S b) err_0 x tot end
    end.

  (** 443-477 (invmethod 'iti'): the Newton step. *)
  Definition iti_step (tol : R) (smaxit : nat) (x : tensor) : res (tensor * nat) :=
    bind (premultiply n_m n_im N n_x (iti_dres_c x) (iti_jres_c x)) (fun J =>
    invert_jac (fun p i j S l => nth l (interpolate p i j S) 0) n_m n_im N n_x (iti_res x) (iti_dres_c x) J
      (fun i j n => nth n (next_states g exo s n_x x i j) []) tol smaxit).

  (** 363-513. *)
  Fixpoint iti_loop (tol : R) (maxbsteps smaxit fuel it : nat) (x : tensor) : res iti_result :=
    match fuel with
    | O => Err ExcName
    | S fuel' =>
        let err_0 := tnorm n_m N n_x (iti_res x) in
        bind (iti_step tol smaxit x) (fun a =>
        let tot := fst a in
        match backsteps maxbsteps 0 err_0 x tot with
        | None => Err ExcName
        | Some new_x =>
            let out y c := {| iti_x := y; iti_N := it; iti_f_x := err_0;
                              iti_d_x := tnorm n_m N n_x tot; iti_converged := c |} in
            if Rlt_dec err_0 tol then Ok (out x true)
            else match fuel' with
                 | O => Ok (out new_x false)
                 | S _ => iti_loop tol maxbsteps smaxit fuel' (S it) new_x
                 end
        end)
    end.

  (** 249-538 with details=True, compute_radius=False, invmethod='iti', after the initial controls
      and the bounds have been computed.  [dprocess.node(0)] raises IndexError without states;
      [abs(res).max()] raises ValueError on an empty array. *)
  Definition improved_time_iteration (tol : R) (maxbsteps smaxit maxit : nat) (x0 : tensor) : res iti_result :=
    if Nat.eqb (ex_n exo) 0 then Err ExcIndex
    else if Nat.eqb maxit 0 then Err ExcName
    else if Nat.eqb (n_m * N * n_x) 0 then Err ExcValue
    else iti_loop tol maxbsteps smaxit maxit 0 x0.
End ITI.
