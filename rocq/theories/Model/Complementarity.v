(** Fischer-Burmeister functions: dolo/algos/fb.py,
    dolo/numeric/optimize/ncpsolve.py [smooth], the smoothing of
    dolo/algos/improved_time_iteration.py. *)
From Coq Require Import Reals Arith.
From Verif.Base Require Import Prelude Ext.
Open Scope R_scope.

(** fb.py:16-18. *)
Definition PhiFB (a b : R) : R := a + b - sqrt (a ^ 2 + b ^ 2).

(** fb.py:21-23, finite bounds. *)
Definition smooth_FB (f x a b : R) : R := PhiFB (- PhiFB f (x - a)) (b - x).

(** The same two functions on floats with infinities (same lines). *)
Definition PhiFB_flt (a b : flt) : flt :=
  flt_sub (flt_add a b) (flt_sqrt (flt_add (flt_sq a) (flt_sq b))).
Definition smooth_FB_flt (f x : R) (a b : ext) : flt :=
  PhiFB_flt (flt_opp (PhiFB_flt (Num f) (flt_sub (Num x) (flt_of_ext a))))
            (flt_sub (flt_of_ext b) (Num x)).

(** fb.py:26-36: value and two partial derivatives. *)
Definition PhiFB_ (a b : R) : R * R * R :=
  let sq := sqrt (a ^ 2 + b ^ 2) in
  let x := a + b - sq in
  if Req_EM_T sq 0 then (x, 0, 0) else (x, 1 - a / sq, 1 - b / sq).

(** fb.py:39-49: value and derivative with respect to x, [df] being that of [f]. *)
Definition smooth_FB_ (f x a b df : R) : R * R :=
  let '(P1, dv_df, dv_dx) := PhiFB_ f (x - a) in
  let dP1_dx := dv_df * df + dv_dx in
  let '(P2, dv_df2, dv_dx2) := PhiFB_ (- P1) (b - x) in
  (P2, - dv_df2 * dP1_dx - dv_dx2).

(** fb.py:74-84 [smooth_] and fb.py:55-68 [smooth] (which only returns the values):
    entrywise on arrays of shape (n_ms, N, n_x). *)
Definition smooth_arr (n_ms N n_x : nat) (f x a b : nat -> nat -> nat -> R)
  : nat -> nat -> nat -> R :=
  for_range n_ms (fun i V => for_range N (fun n V => for_range n_x (fun j V =>
    fun i' n' j' =>
      if andb (Nat.eqb i' i) (andb (Nat.eqb n' n) (Nat.eqb j' j))
      then smooth_FB (f i n j) (x i n j) (a i n j) (b i n j) else V i' n' j') V) V)
    (fun _ _ _ => 0).

(** ** ncpsolve.py *)

(** ncpsolve.py:32. *)
Definition BIG : R := 100000000000000000000.

(** ncpsolve.py:34-64, one entry: new value, [ff] and [xx].  The code computes the
    formulas and then overwrites the entries flagged [dainf]/[dbinf]; a lower bound +inf
    or an upper bound -inf gives nan ([None]), and so does 0/0 in the derivatives
    (kept apart: [ncp_value] is well defined then). *)
Definition ncp_pval (a : ext) (x fx : R) : option R :=
  if ext_leb a (- BIG) then Some fx
  else match a with
       | Fin r => Some (fx + sqrt (fx ^ 2 + (r - x) ^ 2) + (r - x))
       | _ => None
       end.

Definition ncp_value (a b : ext) (x fx : R) : option R :=
  match ncp_pval a x fx with
  | None => None
  | Some pval =>
      if ext_geb b BIG then Some pval
      else match b with
           | Fin r => Some (pval - sqrt (pval ^ 2 + (r - x) ^ 2) + (r - x))
           | _ => None
           end
  end.

(** ncpsolve.py:51-64: [(ff, xx)]; [None] stands for nan (division by zero). *)
Definition ncp_dp (a : ext) (x fx : R) : option (R * R) :=
  if ext_leb a (- BIG) then Some (1, 0)
  else match a with
       | Fin r =>
           let sq1 := sqrt (fx ^ 2 + (r - x) ^ 2) in
           if Req_EM_T sq1 0 then None else Some (1 + fx / sq1, 1 + (r - x) / sq1)
       | _ => None
       end.

Definition ncp_dm (b : ext) (x pval : R) : option (R * R) :=
  if ext_geb b BIG then Some (1, 0)
  else match b with
       | Fin r =>
           let sq2 := sqrt (pval ^ 2 + (r - x) ^ 2) in
           if Req_EM_T sq2 0 then None else Some (1 - pval / sq2, 1 - (r - x) / sq2)
       | _ => None
       end.

Definition ncp_coefs (a b : ext) (x fx : R) : option (R * R) :=
  match ncp_pval a x fx with
  | None => None
  | Some pval =>
      match ncp_dp a x fx, ncp_dm b x pval with
      | Some (dpdy, dpdz), Some (dmdy, dmdz) => Some (dmdy * dpdy, dmdy * dpdz + dmdz)
      | _, _ => None
      end
  end.

(** ncpsolve.py:66-105: layouts of the Jacobian. *)
Inductive jactype : Type := JSerial | JSparse | JFull.

(** One entry of the returned residual and Jacobian, row [i], column [j] of a page:
    for 'serial' and 'sparse' [fxnew] and [ff*J - xx*I]; for 'full' line 94 returns
    the arguments unchanged. *)
Definition ncp_smooth_value (jt : jactype) (a b : ext) (x fx : R) : option R :=
  match jt with JFull => Some fx | _ => ncp_value a b x fx end.

Definition ncp_smooth_jac (jt : jactype) (a b : ext) (x fx : R) (diagonal : bool) (J : R)
  : option R :=
  match jt with
  | JFull => Some J
  | _ => match ncp_coefs a b x fx with
         | Some (ff, xx) => Some (ff * J - (if diagonal then xx else 0))
         | None => None
         end
  end.

(** ncpsolve.py:13-23 [fcmp], value part: the sign of the function is reverted. *)
Definition fcmp_value (jt : jactype) (a b : ext) (x f : R) : option R :=
  ncp_smooth_value jt a b x (- f).

(** ** improved_time_iteration.py:43-73 *)

(** Entry of [smooth_nodiff(res, dx)]: [dx] may be infinite. *)
Definition iti_smooth (res : R) (dx : ext) : option R :=
  if ext_gtb dx 100000 then Some res
  else match dx with
       | Fin d => Some (res + d - sqrt (res ^ 2 + d ^ 2))
       | _ => None
       end.

(** Lines 51-55: [Phi_a], [Phi_b]. *)
Definition iti_coefs (res : R) (dx : ext) : option (R * R) :=
  if ext_gtb dx 100000 then Some (1, 0)
  else match dx with
       | Fin d => let sq := sqrt (res ^ 2 + d ^ 2) in
                  if Req_EM_T sq 0 then None else Some (1 - res / sq, 1 - d / sq)
       | _ => None
       end.
