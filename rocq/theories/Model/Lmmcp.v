(** The Levenberg-Marquardt solver for mixed complementarity problems:
    dolo/numeric/extern/lmmcp.py.  Vectors have [n] entries; bounds are extended reals.
    Where the code would produce nan (a lower bound +inf, an upper bound -inf) the model
    uses an arbitrary real [nan]; the statements exclude these bounds. *)
From Coq Require Import Reals Arith String.
From Verif.Base Require Import Prelude Sums Norms Ext.
Open Scope R_scope.

(** lmmcp.py:16-48, module constants (the others are options). *)
Definition kmax : nat := 500.
Definition lambda1 : R := 1 / 10.
Definition lambda2 : R := 1 - lambda1.
Definition lm_beta : R := 55 / 100.
Definition lm_sigma : R := 1 / 10000.
Definition tmin : R := 1 / 1000000000000.
Definition m_hist : nat := 10.
Definition kwatch : nat := 20.
Definition deltamin : R := 1.
Definition sigma1 : R := 1 / 2.
Definition sigma2 : R := 2.
Definition eta : R := 95 / 100.

(** lmmcp.py:51-73: the options that are read.  [eps1] is read and never used. *)
Record lm_opts : Type :=
  { eps2 : R; null_ : R; Big : R; preprocess : bool; presteps : nat; verbose : bool }.

Definition fin (nan : R) (e : ext) : R := match e with Fin r => r | _ => nan end.

(** lmmcp.py:88-101: index set, one component. *)
Definition indexset (big : R) (l u : ext) : nat :=
  if andb (ext_gtb l (- big)) (ext_ltb u big) then 3%nat
  else if andb (ext_ltb l (- big)) (ext_ltb u big) then 2%nat
  else if andb (ext_gtb l (- big)) (ext_gtb u big) then 1%nat
  else 0%nat.

(** lmmcp.py:385-390. *)
Definition phi_u (ub x Fx : R) : R := sqrt ((ub - x) ^ 2 + Fx ^ 2) - ub + x + Fx.

(** lmmcp.py:391-415, entry [i] of the first and of the second block. *)
Definition Phi_first (nan : R) (ind : nat) (l u : ext) (x Fx : R) : R :=
  let lb := fin nan l in let ub := fin nan u in
  match ind with
  | 1%nat => lambda1 * (- x + lb - Fx + sqrt ((x - lb) ^ 2 + Fx ^ 2))
  | 2%nat => - lambda1 * phi_u ub x Fx
  | 0%nat => - lambda1 * Fx
  | _ => lambda1 * (sqrt ((x - lb) ^ 2 + phi_u ub x Fx ^ 2) - x + lb - phi_u ub x Fx)
  end.

Definition Phi_second (nan : R) (ind : nat) (l u : ext) (x Fx : R) : R :=
  let lb := fin nan l in let ub := fin nan u in
  match ind with
  | 1%nat => lambda2 * Rmax 0 (x - lb) * Rmax 0 Fx
  | 2%nat => lambda2 * Rmax 0 (ub - x) * Rmax 0 (- Fx)
  | 0%nat => - lambda2 * Fx
  | _ => lambda2 * (Rmax 0 (x - lb) * Rmax 0 Fx + Rmax 0 (ub - x) * Rmax 0 (- Fx))
  end.

(** lmmcp.py:382-416. *)
Definition Phi3MCPPFB (nan : R) (n : nat) (ind : nat -> nat) (lb ub : nat -> ext)
    (x Fx : nat -> R) : nat -> R :=
  fun r => if Nat.ltb r n then Phi_first nan (ind r) (lb r) (ub r) (x r) (Fx r)
           else Phi_second nan (ind (r - n)%nat) (lb (r - n)%nat) (ub (r - n)%nat)
                  (x (r - n)%nat) (Fx (r - n)%nat).

(** lmmcp.py:422: a local constant. *)
Definition dnull : R := 1 / 100000000.

(** Tests [|e - x| <= null], [x - e >= -null], [e - x >= -null] when [e] may be infinite. *)
Definition near (e : ext) (x : R) : bool :=
  match e with Fin r => if Rle_dec (Rabs (x - r)) dnull then true else false | _ => false end.
Definition above (l : ext) (x : R) : bool :=
  match l with Fin r => if Rle_dec (- dnull) (x - r) then true else false
             | MInf => true | PInf => false end.
Definition below (u : ext) (x : R) : bool :=
  match u with Fin r => if Rle_dec (- dnull) (r - x) then true else false
             | MInf => false | PInf => true end.

(** lmmcp.py:431-447. *)
Definition small (F : R) : bool := if Rle_dec (Rabs F) dnull then true else false.
Definition beta_l (l : ext) (x F : R) : bool := andb (near l x) (small F).
Definition beta_u (u : ext) (x F : R) : bool := andb (near u x) (small F).
Definition zvec (l u : ext) (x F : R) : R :=
  if orb (beta_l l x F) (beta_u u x F) then 1 else 0.
Definition alpha_l (l : ext) (x F : R) : bool :=
  andb (above l x) (if Rle_dec (- dnull) F then true else false).
Definition alpha_u (u : ext) (x F : R) : bool :=
  andb (below u x) (if Rle_dec F dnull then true else false).

(** lmmcp.py:455-546: [Da], [Db] for one component; [dz] is [DFx[i,:] . z], [z] is [z[i]].
    In the case of two bounds [denom4] is computed while [ci = di = 0] (lines 503-527). *)
Definition DPhi_ab (nan : R) (ind : nat) (l u : ext) (x F z dz : R) : R * R :=
  let lb := fin nan l in let ub := fin nan u in
  match ind with
  | 0%nat => (0, -1)
  | 1%nat =>
      let denom1 := Rmax dnull (sqrt ((x - lb) ^ 2 + F ^ 2)) in
      let denom2 := Rmax dnull (sqrt (z ^ 2 + dz ^ 2)) in
      if beta_l l x F then (z / denom2 - 1, dz / denom2 - 1)
      else ((x - lb) / denom1 - 1, F / denom1 - 1)
  | 2%nat =>
      let denom1 := Rmax dnull (sqrt ((ub - x) ^ 2 + F ^ 2)) in
      let denom2 := Rmax dnull (sqrt (z ^ 2 + dz ^ 2)) in
      if beta_u u x F then (- z / denom2 - 1, - dz / denom2 - 1)
      else ((ub - x) / denom1 - 1, - F / denom1 - 1)
  | _ =>
      let phi := - ub + x + F + sqrt ((ub - x) ^ 2 + F ^ 2) in
      let denom1 := Rmax dnull (sqrt ((x - lb) ^ 2 + phi ^ 2)) in
      let denom2 := Rmax dnull (sqrt (z ^ 2 + dz ^ 2)) in
      let denom3 := Rmax dnull (sqrt ((ub - x) ^ 2 + F ^ 2)) in
      let denom4 := Rmax dnull (sqrt (z ^ 2 + (0 * z + 0 * dz) ^ 2)) in
      let '(ci, di) := if beta_u u x F then (1 + z / denom2, 1 + dz / denom2)
                       else ((x - ub) / denom3 + 1, F / denom3 + 1) in
      let '(ai, bi) := if beta_l l x F then (z / denom4 - 1, (ci * z + di * dz) / denom4 - 1)
                       else ((x - lb) / denom1 - 1, phi / denom1 - 1) in
      (ai + bi * ci, bi * di)
  end.

(** lmmcp.py:458, 474-477, 493-498, 547-562: row of [H2]; [e] is [ei[j]], [D] is [DFx[i,j]]. *)
Definition DPhi_H2 (nan : R) (ind : nat) (l u : ext) (x F e D : R) : R :=
  let lb := fin nan l in let ub := fin nan u in
  match ind with
  | 0%nat => - D
  | 1%nat => if alpha_l l x F then (x - lb) * D + F * e else 0
  | 2%nat => if alpha_u u x F then (x - ub) * D + F * e else 0
  | _ => if andb (alpha_l l x F) (alpha_u u x F)
         then (- lb - ub + 2 * x) * D + 2 * F * e
         else if alpha_l l x F then (x - lb) * D + F * e
         else if alpha_u u x F then (x - ub) * D + F * e
         else 0
  end.

(** lmmcp.py:419-570: entry (r, j) of the returned (2n x n) matrix. *)
Definition DPhi3MCPPFB (nan : R) (n : nat) (ind : nat -> nat) (lb ub : nat -> ext)
    (x Fx : nat -> R) (DFx : nat -> nat -> R) : nat -> nat -> R :=
  let z := fun i => zvec (lb i) (ub i) (x i) (Fx i) in
  fun r j =>
    if Nat.ltb r n then
      let dz := rsum n (fun k => DFx r k * z k) in
      let '(da, db) := DPhi_ab nan (ind r) (lb r) (ub r) (x r) (Fx r) (z r) dz in
      lambda1 * (da * (if Nat.eqb r j then 1 else 0) + db * DFx r j)
    else
      let i := (r - n)%nat in
      lambda2 * DPhi_H2 nan (ind i) (lb i) (ub i) (x i) (Fx i)
                  (if Nat.eqb i j then 1 else 0) (DFx i j).

(** lmmcp.py:82: [np.maximum(lb, np.minimum(x, ub))]. *)
Definition clip (nan : R) (l u : ext) (x : R) : R :=
  let y := match u with Fin r => Rmin x r | PInf => x | MInf => nan end in
  match l with Fin r => Rmax r y | MInf => y | PInf => nan end.

(** lmmcp.py:211-213: the step [p] projected on the box. *)
Definition lbnew (l : ext) (x delta : R) : R :=
  match l with
  | Fin r => Rmax (Rmin (r - x) 0) (- delta)
  | MInf => - delta
  | PInf => Rmax 0 (- delta)
  end.
Definition ubnew (u : ext) (x delta : R) : R :=
  match u with
  | Fin r => Rmin (Rmax (r - x) 0) delta
  | PInf => delta
  | MInf => Rmin 0 delta
  end.
Definition proj_step (l u : ext) (x delta p : R) : R :=
  Rmax (lbnew l x delta) (Rmin p (ubnew u x delta)).

Definition sumsq (n : nat) (v : nat -> R) : R := rsum n (fun i => v i ^ 2).
Definition norm2 (n : nat) (v : nat -> R) : R := sqrt (sumsq n v).

Section Lmmcp.
  Variable nan : R.
  Variable o : lm_opts.
  Variable n : nat.
  Variable F : (nat -> R) -> nat -> R.
  Variable DF : (nat -> R) -> nat -> nat -> R.
  Variable lb ub : nat -> ext.
  (** The least-squares direction (lmmcp.py:187-208 and 293-310): any function of the phase,
      the iteration number, the Jacobian and the residual; it may raise. *)
  Variable lsq : bool -> nat -> (nat -> nat -> R) -> (nat -> R) -> res (nat -> R).

  Definition ind (i : nat) : nat := indexset (Big o) (lb i) (ub i).
  Definition Phi (x : nat -> R) : nat -> R := Phi3MCPPFB nan n ind lb ub x (F x).
  Definition DPhi (x : nat -> R) : nat -> nat -> R := DPhi3MCPPFB nan n ind lb ub x (F x) (DF x).
  (** [0.5 * np.dot(Phix.T, Phix)]. *)
  Definition Psi_of (phix : nat -> R) : R := / 2 * sumsq (2 * n) phix.
  (** [np.dot(DPhix.T, Phix)]. *)
  Definition DPsi_of (dphi : nat -> nat -> R) (phix : nat -> R) : nat -> R :=
    fun j => rsum (2 * n) (fun r => dphi r j * phix r).

  (** lmmcp.py:178-238: preprocessing, [fuel] = presteps - k.  State: iterate, residual,
      its merit, its Jacobian, k, delta, norm of the last step. *)
  Fixpoint pre_loop (fuel k : nat) (x phix : nat -> R) (psix : R) (dphix : nat -> nat -> R)
      (delta normp : R) : res ((nat -> R) * (nat -> R) * R * (nat -> nat -> R) * nat) :=
    match fuel with
    | O => Ok (x, phix, psix, dphix, k)
    | S fuel' =>
        if Rlt_dec (eps2 o) psix then
          if Rlt_dec (null_ o) normp then
            let k' := S k in
            bind (lsq true k' dphix phix) (fun p =>
              let xnew := fun i => x i + proj_step (lb i) (ub i) (x i) delta (p i) in
              let phinew := Phi xnew in
              let delta' :=
                if Rle_dec (norm2 (2 * n) phinew) (eta * norm2 (2 * n) phix)
                then Rmax deltamin (sigma2 * delta)
                else if Rlt_dec (5 * eta * norm2 (2 * n) phix) (norm2 (2 * n) phinew)
                     then Rmax deltamin (sigma1 * delta) else delta in
              pre_loop fuel' k' xnew phinew (Psi_of phinew) (DPhi xnew) delta' (norm2 n p))
          else Ok (x, phix, psix, dphix, k)
        else Ok (x, phix, psix, dphix, k)
    end.

  (** lmmcp.py:318-330: Armijo search along [d]; every round multiplies t by 0.55 and
      stops once t <= tmin, so 47 rounds are enough ([fuel], proved sufficient). *)
  Fixpoint armijo (fuel : nat) (x d : nat -> R) (maxpsi const t : R) (xnew : nat -> R)
    : option (nat -> R) :=
    if Rlt_dec (maxpsi + const * t) (Psi_of (Phi xnew)) then
      if Rlt_dec tmin t then
        match fuel with
        | O => None
        | S f => armijo f x d maxpsi const (t * lm_beta) (fun i => x i + t * lm_beta * d i)
        end
      else Some xnew
    else Some xnew.

  (** Loop state of the main phase; [b_] is the best point so far (watchdog). *)
  Record mstate : Type :=
    { m_x : nat -> R; m_phi : nat -> R; m_psi : R; m_dphi : nat -> nat -> R; m_dpsi : nat -> R;
      m_max : R; m_aux : nat -> R; m_k : nat; m_kmain : nat;
      b_k : nat; b_x : nat -> R; b_phi : nat -> R; b_psi : R;
      b_dphi : nat -> nat -> R; b_dpsi : nat -> R }.

  (** lmmcp.py:289-369: one iteration of the main loop. *)
  Definition main_step (s : mstate) : res mstate :=
    bind (lsq false (m_k s) (m_dphi s) (m_phi s)) (fun d =>
      let const := rsum n (fun j => lm_sigma * m_dpsi s j * d j) in
      match armijo 60 (m_x s) d (m_max s) const 1 (fun i => m_x s i + d i) with
      | None => Err ExcRuntime
      | Some x' =>
          let phi' := Phi x' in let psi' := Psi_of phi' in
          let dphi' := DPhi x' in let dpsi' := DPsi_of dphi' phi' in
          let k' := S (m_k s) in let km' := S (m_kmain s) in
          let aux' := upd (m_aux s) (km' mod m_hist) psi' in
          let max' := if Nat.leb km' 5 then psi' else vmax m_hist aux' in
          if Rlt_dec psi' (b_psi s) then
            Ok {| m_x := x'; m_phi := phi'; m_psi := psi'; m_dphi := dphi'; m_dpsi := dpsi';
                  m_max := max'; m_aux := aux'; m_k := k'; m_kmain := km';
                  b_k := k'; b_x := x'; b_phi := phi'; b_psi := psi';
                  b_dphi := dphi'; b_dpsi := dpsi' |}
          else if Nat.ltb kwatch (k' - b_k s) then
            Ok {| m_x := b_x s; m_phi := b_phi s; m_psi := b_psi s; m_dphi := b_dphi s;
                  m_dpsi := b_dpsi s; m_max := b_psi s; m_aux := aux'; m_k := k'; m_kmain := km';
                  b_k := b_k s; b_x := b_x s; b_phi := b_phi s; b_psi := b_psi s;
                  b_dphi := b_dphi s; b_dpsi := b_dpsi s |}
          else
            Ok {| m_x := x'; m_phi := phi'; m_psi := psi'; m_dphi := dphi'; m_dpsi := dpsi';
                  m_max := max'; m_aux := aux'; m_k := k'; m_kmain := km';
                  b_k := b_k s; b_x := b_x s; b_phi := b_phi s; b_psi := b_psi s;
                  b_dphi := b_dphi s; b_dpsi := b_dpsi s |}
      end).

  (** lmmcp.py:287-369, [fuel] = kmax - k. *)
  Fixpoint main_loop (fuel : nat) (s : mstate) : res mstate :=
    match fuel with
    | O => Ok s
    | S f => if Rlt_dec (eps2 o) (m_psi s) then bind (main_step s) (main_loop f) else Ok s
    end.

  (** lmmcp.py:61-376. *)
  Definition lmmcp (xstart : nat -> R) : res (nat -> R) :=
    let x0 := fun i => clip nan (lb i) (ub i) (xstart i) in
    let phi0 := Phi x0 in let psi0 := Psi_of phi0 in
    let dphi0 := DPhi x0 in let dpsi0 := DPsi_of dphi0 phi0 in
    let main := fun k x phix psix dphix =>
      bind (main_loop (kmax - k)
              {| m_x := x; m_phi := phix; m_psi := psix; m_dphi := dphix;
                 m_dpsi := DPsi_of dphix phix;
                 m_max := psi0; m_aux := upd (fun _ => 0) 0 psi0; m_k := k; m_kmain := 0;
                 b_k := 0; b_x := x0; b_phi := phi0; b_psi := psi0; b_dphi := dphi0;
                 b_dpsi := dpsi0 |})
           (fun s => if Nat.eqb (m_k s) kmax then Err (ExcGeneric "No convergence")
                     else Ok (m_x s)) in
    if preprocess o then
      bind (pre_loop (presteps o) 0 x0 phi0 psi0 dphi0 5 1) (fun st =>
        let '(x, phix, psix, dphix, k) := st in
        if Rlt_dec psix (eps2 o) then
          if verbose o then Ok x else main k x phix psix dphix
        else main k x0 phi0 psi0 dphi0)
    else main 0%nat x0 phi0 psi0 dphi0.
End Lmmcp.
