(** First-order perturbation: dolo/algos/perturbation.py, dolo/numeric/extern/qz.py.  Matrices are
    functions of a row and a column, their shapes are explicit. *)
From Coq Require Import String Reals List Arith ZArith Lia Bool.
From Verif.Base Require Import Prelude Ext Sums.
From Verif.Spec Require Import LinearAlgebra.
From Verif.Model Require Import DecisionRule.
Import ListNotations.
Open Scope R_scope.

Definition matR := nat -> nat -> R.

(** The seven matrices of derivatives, in the order returned by get_derivatives (line 58): shapes
    (n_s,n_s), (n_s,n_x), (n_s,n_e), then (n_x,n_s), (n_x,n_x), (n_x,n_s), (n_x,n_x). *)
Record derivatives : Type := Deriv {
  g_s : matR; g_x : matR; g_e : matR; f_s : matR; f_x : matR; f_S : matR; f_X : matR }.

(** Exogenous processes, as get_derivatives distinguishes them (lines 32-56). *)
Inductive shock_kind := ShockVAR1 | ShockIID | ShockOther.

(** 4-58: for a VAR1 the attribute [rho] is read (line 33): the class only has [ρ]. [raw] are the
    derivatives of the model: (g_m, g_s, g_x, f_s, f_x, f_S, f_X).  [G_e = g_m] (line 50). *)
Definition get_derivatives (k : shock_kind) (g_m : matR) (raw : matR * matR * matR * matR * matR * matR)
  : res derivatives :=
  let '(gs, gx, fs, fx, fS, fX) := raw in
  match k with
  | ShockVAR1 => Err ExcAttribute
  | ShockIID => Ok (Deriv gs gx g_m fs fx fS fX)
  | ShockOther => Err (ExcGeneric "Not implemented: perturbation for shock")
  end.

(** [row_stack([column_stack([a, b]), column_stack([c, d])])], with [a] of shape (p, q). *)
Definition blocks (p q : nat) (a b c d : matR) : matR := fun i j =>
  if Nat.ltb i p then (if Nat.ltb j q then a i j else b i (j - q)%nat)
  else (if Nat.ltb j q then c (i - p)%nat j else d (i - p)%nat (j - q)%nat).

(** qz.py:18: [abs(diag(S) / diag(T))]; a zero denominator gives inf (the numerator is not zero when
    this is used, line 141). *)
Definition eigval (S T : matR) (i : nat) : ext :=
  if Req_EM_T (T i i) 0 then PInf else Fin (Rabs (S i i / T i i)).

Definition ext_leb (a b : ext) : bool :=
  match a, b with
  | MInf, _ => true
  | _, PInf => true
  | Fin x, Fin y => if Rle_dec x y then true else false
  | _, _ => false
  end.
Definition ext_ltb (a b : ext) : bool := negb (ext_leb b a).

(** Python's [sorted]. *)
Fixpoint insert (a : ext) (l : list ext) : list ext :=
  match l with
  | [] => [a]
  | b :: l' => if ext_leb a b then a :: l else b :: insert a l'
  end.
Fixpoint sorted (l : list ext) : list ext :=
  match l with [] => [] | a :: l' => insert a (sorted l') end.

Section Solve.
  (** qz.py:8-20: [qz n A B crit] gives (S, T, Q, Z) of scipy's ordqz, eigenvalues with
      alpha**2 > crit * beta**2 first; [solve n A b]: numpy.linalg.solve. *)
  Variable qz : nat -> matR -> matR -> R -> res (matR * matR * matR * matR).
  Variable solve : nat -> matR -> (nat -> R) -> res (nat -> R).

  Definition tol_geneigvals : R := 1 / 10 ^ 10.

  (** 141-145: no diagonal pair is zero. *)
  Definition pairs_ok (n : nat) (S T : matR) : bool :=
    forallb (fun i => negb ((if Rlt_dec (Rabs (S i i)) tol_geneigvals then true else false) &&
                            (if Rlt_dec (Rabs (T i i)) tol_geneigvals then true else false))) (seq 0 n).

  (** 148: [max(eigval[:n_s]) >= 1 and min(eigval[n_s:]) < 1]: maximum and minimum of non-empty lists
      compared with a number. *)
  Definition some_above (ev : nat -> ext) (l : list nat) : bool := existsb (fun i => ext_leb (Fin 1) (ev i)) l.
  Definition some_below (ev : nat -> ext) (l : list nat) : bool := existsb (fun i => ext_ltb (ev i) (Fin 1)) l.
  Definition bk_check (n_s n_x : nat) (ev : nat -> ext) : res bool :=
    if Nat.eqb n_s 0 then Err ExcValue
    else if some_above ev (seq 0 n_s)
         then (if Nat.eqb n_x 0 then Err ExcValue else Ok (some_below ev (seq n_s n_x)))
         else Ok false.

  (** 175-184: [solve(Z11.T, Z21.T).T]. *)
  Definition rule_matrix (n_s n_x : nat) (Z : matR) : res matR :=
    for_range_res n_x (fun i C =>
      bind (solve n_s (fun a b => Z b a) (fun j => Z (n_s + i)%nat j)) (fun c => Ok (upd C i c)))
      (fun _ _ => 0).

  Definition fin (a : ext) : R := match a with Fin r => r | _ => 0 end.

  (** 119-189.  The exception classes of lines 145 and 156 are not defined: NameError. *)
  Definition approximate_1st_order (n_s n_x : nat) (d : derivatives) : res (matR * list ext) :=
    let n_v := (n_s + n_x)%nat in
    let A := blocks n_s n_s eye (fun _ _ => 0) (fun i j => - f_S d i j) (fun i j => - f_X d i j) in
    let B := blocks n_s n_s (g_s d) (g_x d) (f_s d) (f_x d) in
    bind (qz n_v A B (1 - 1 / 10 ^ 8)) (fun r =>
    let '(SS, TT, _, ZZ) := r in
    if negb (pairs_ok n_v SS TT) then Err ExcName
    else
      let ev := eigval SS TT in
      let eigval_s := sorted (map ev (seq 0 n_v)) in
      bind (bk_check n_s n_x ev) (fun ok =>
      if ok then bind (rule_matrix n_s n_x ZZ) (fun C => Ok (C, eigval_s))
      else
        match nth_error eigval_s (n_s - 1), nth_error eigval_s n_s with
        | Some ev_a, Some ev_b =>
            if ext_ltb ev_b ev_a
            then bind (qz n_v A B ((fin ev_a - fin ev_b) / 2)) (fun r =>
                 let '(_, _, _, ZZ) := r in
                 bind (rule_matrix n_s n_x ZZ) (fun C => Ok (C, eigval_s)))
            else Err ExcName
        | _, _ => Err ExcIndex
        end)).

  (** What perturb returns: coefficients of the decision rule and eigenvalues; the three flags of
      PerturbationResult are always True. *)
  Record perturbation : Type := Pert {
    pe_m : list R; pe_s : list R; pe_x : list R; pe_Cm : option matR; pe_Cs : matR;
    pe_eigvals : list ext; pe_flags : bool * bool * bool }.

  (** 196-272, with the values [m], [s], [x] of the steady state. *)
  Definition perturb (k : shock_kind) (g_m : matR) raw (m s x : list R) (order : nat) : res perturbation :=
    if Nat.ltb 1 order then Err (ExcGeneric "Not implemented.")
    else
      bind (get_derivatives k g_m raw) (fun d =>
      bind (approximate_1st_order (length s) (length x) d) (fun Ce =>
      let (C, ev) := Ce in
      match k with
      | ShockVAR1 => Ok (Pert m s x (Some C) (fun i j => C i (length m + j)%nat) ev (true, true, true))
      | ShockIID => Ok (Pert m s x None C ev (true, true, true))
      | ShockOther => Err ExcName
      end)).
End Solve.

(* ------------------------------------------------------------------ *)
(** ** BivariateTaylor *)

(** 66-78.  Coefficients: [bt_Cm] is None for iid shocks. *)
Record btaylor : Type := BTaylor {
  bt_m : list R; bt_s : list R; bt_x : list R; bt_Cm : option matR; bt_Cs : matR }.

(** Row [x_bar + dm @ C_m.T + ds @ C_s.T]. *)
Definition bt_dev (p : list R) (p0 : list R) (C : matR) (k : nat) : R :=
  rsum (length p0) (fun j => (nth j p 0 - nth j p0 0) * C k j).
Definition bt_row (t : btaylor) (m s : list R) : list R :=
  map (fun k => nth k (bt_x t) 0 +
                (match bt_Cm t with Some Cm => bt_dev m (bt_m t) Cm k | None => 0 end) +
                bt_dev s (bt_s t) (bt_Cs t) k) (seq 0 (length (bt_x t))).

(** Broadcasting of the rows of two arrays. *)
Definition broadcast (m s : list (list R)) : res (list (list R * list R)) :=
  if Nat.eqb (length m) (length s) then Ok (combine m s)
  else match m, s with
       | [m0], _ => Ok (map (fun si => (m0, si)) s)
       | _, [s0] => Ok (map (fun mi => (mi, s0)) m)
       | _, _ => Err ExcValue
       end.

(** Lines 101-109 on 2-d arrays ([m] is not read without C_m). *)
Definition bt_rows (t : btaylor) (m : option (list (list R))) (s : list (list R)) : res (list (list R)) :=
  match bt_Cm t with
  | None => Ok (map (bt_row t []) s)
  | Some _ => match m with
              | None => Err ExcType                              (* None - array *)
              | Some m => bind (broadcast m s) (fun l => Ok (map (fun ms => bt_row t (fst ms) (snd ms)) l))
              end
  end.

(** 87-109: [m] may be None (eval_s), a vector or a matrix; the points have the width of the
    expansion point. *)
Definition bt_eval_ms (t : btaylor) (m : option points) (s : points) : res points :=
  match m, s with
  | Some (P1 m), P1 s =>
      bind (bt_rows t (match bt_Cm t with Some _ => Some [m] | None => None end) [s]) (fun out =>
      match out with r :: _ => Ok (P1 r) | [] => Err ExcIndex end)
  | Some (P1 m), P2 s => bind (bt_rows t (Some [m]) s) (fun out => Ok (P2 out))
  | Some (P2 m), P1 s => bind (bt_rows t (Some m) [s]) (fun out => Ok (P2 out))
  | Some (P2 m), P2 s => bind (bt_rows t (Some m) s) (fun out => Ok (P2 out))
  | None, P1 s => bind (bt_rows t None [s]) (fun out => Ok (P2 out))
  | None, P2 s => bind (bt_rows t None s) (fun out => Ok (P2 out))
  end.

(** 80-85. *)
Definition bt_eval_s (t : btaylor) (s : points) : res points :=
  match s with
  | P1 s => bind (bt_eval_ms t None (P2 [s])) (fun out =>
            match out with P2 (r :: _) => Ok (P1 r) | _ => Err ExcIndex end)
  | P2 s => bt_eval_ms t None (P2 s)
  end.
