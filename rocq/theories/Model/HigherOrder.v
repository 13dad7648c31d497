(** Model of /repo/dolo/algos/perturbations_higher_order.py: perturbation of order one, two and three.
    (Importing the module fails: dolo/compiler/derivatives.py:6 imports
    dolo.compiler.function_compiler_sympy, which is not in the repository.  What is modelled is what the
    functions of the module compute from the derivatives they are given.) *)
From Coq Require Import String Reals List Arith Bool.
From Verif.Base Require Import Prelude Ext Sums Arrays.
From Verif.Spec Require Import LinearAlgebra.
From Verif.Model Require Import DecisionRule Perturbation.
From Verif.Base Require Import Nda.
From Verif.Model Require Import Tensor MatrixEquations Taylor.
Import ListNotations.
Open Scope R_scope.

Notation "'let*' x ':=' e 'in' k" := (bind e (fun x => k)) (at level 200, x name, right associativity).

(* ------------------------------------------------------------------ *)
(** ** numpy functions called (their documented behaviour) *)

(** One axis of a slice: first index and length; [None] is an open end.  Ends are clipped. *)
Definition seg (d : nat) (r : nat * option nat) : nat :=
  match snd r with Some len => Nat.min len (d - fst r) | None => (d - fst r)%nat end.
(** [a[lo:hi, ...]], all axes being given. *)
Definition nd_slice (a : nda) (rs : list (nat * option nat)) : res nda :=
  if Nat.eqb (length rs) (length (shape a))
  then Ok (Nda (map (fun p => seg (fst p) (snd p)) (combine (shape a) rs))
             (fun idx => at_ a (map (fun p => (fst (fst p) + snd p)%nat) (combine rs idx))))
  else Err ExcIndex.
Definition all_ : nat * option nat := (0%nat, None).
Definition to_ (n : nat) : nat * option nat := (0%nat, Some n).
Definition from_to (n m : nat) : nat * option nat := (n, Some (m - n)%nat).
Definition from_ (n : nat) : nat * option nat := (n, None).

(** Sum of arrays of the same shape (simplification: no broadcasting). *)
Definition nd_add (a b : nda) : res nda :=
  if list_eq_dec Nat.eq_dec (shape a) (shape b) then Ok (Nda (shape a) (fun idx => at_ a idx + at_ b idx)) else Err ExcValue.
Definition nd_scale (c : R) (a : nda) : nda := Nda (shape a) (fun idx => c * at_ a idx).
Definition nd_eye (n : nat) : nda := Nda [n; n] (fun idx => eye (nth 0 idx 0%nat) (nth 1 idx 0%nat)).
Definition nd_zeros (sh : list nat) : nda := Nda sh (fun _ => 0).

(** [np.row_stack] of arrays of rank two or more, [np.concatenate] of vectors. *)
Fixpoint vstack (l : list nda) : res nda :=
  match l with
  | [] => Err ExcValue
  | [a] => Ok a
  | a :: r =>
      bind (vstack r) (fun b =>
      match shape a, shape b with
      | da :: ta, db :: tb =>
          if list_eq_dec Nat.eq_dec ta tb
          then Ok (Nda ((da + db)%nat :: ta) (fun idx =>
                 match idx with
                 | i :: rest => if Nat.ltb i da then at_ a idx else at_ b ((i - da)%nat :: rest)
                 | [] => 0
                 end))
          else Err ExcValue
      | _, _ => Err ExcValue
      end)
  end.

(** [np.dot]: the last axis of the first array against the last but one of the second (its only one if
    it is a vector). *)
Definition np_dot (a b : nda) : res nda :=
  match length (shape b) with
  | O => Err ExcValue
  | S O => sdot a b
  | S (S k) =>
      let ra := (length (shape a) - 1)%nat in
      match nth_error (shape a) ra, nth_error (shape b) k with
      | Some d, Some d' =>
          if Nat.eqb d d' then
            Ok (Nda (firstn ra (shape a) ++ firstn k (shape b) ++ skipn (S k) (shape b))
                  (fun idx =>
                     let ia := firstn ra idx in
                     let ib := skipn ra idx in
                     rsum d (fun j => at_ a (ia ++ [j]) * at_ b (firstn k ib ++ j :: skipn k ib))))
          else Err ExcValue
      | _, _ => Err ExcValue
      end
  end.

(** [np.tensordot(a, sigma, axes=((n-2, n-1), (0, 1)))] for [a] of rank n. *)
Definition against (a sigma : nda) : res nda :=
  let k := (length (shape a) - 2)%nat in
  if list_eq_dec Nat.eq_dec (skipn k (shape a)) (shape sigma)
  then match shape sigma with
       | [d1; d2] => Ok (Nda (firstn k (shape a))
                          (fun idx => rsum d1 (fun i => rsum d2 (fun j => at_ a (idx ++ [i; j]) * at_ sigma [i; j]))))
       | _ => Err ExcValue
       end
  else Err ExcValue.

Definition to_mat (a : nda) : mat := Mat (nth 0 (shape a) 0%nat) (nth 1 (shape a) 0%nat) (fun i j => at_ a [i; j]).

(* ------------------------------------------------------------------ *)
(** ** perturbations_higher_order.py *)

(** 191: the cutoff between two eigenvalues, [ev_b] being the smaller one. *)
Definition half_gap (ev_a ev_b : ext) : ext :=
  match ev_a, ev_b with Fin a, Fin b => Fin ((a - b) / 2) | _, _ => PInf end.

Section State.
  (** qz.py: [qz n A B crit] gives (S, T, Q, Z); numpy.linalg.solve. *)
  Variable qz : nat -> matR -> matR -> ext -> res (matR * matR * matR * matR).
  Variable solve : nat -> matR -> (nat -> R) -> res (nat -> R).

  (** 212-221: C, once P has been computed too (it is not used, but its computation may raise). *)
  Definition first_rule (n_s n_x : nat) (SS TT ZZ : matR) : res nda :=
    let* C := rule_matrix solve n_s n_x ZZ in
    let* _ := solve_columns solve n_s (fun i j => SS j i) (fun i j => ZZ j i) in
    let* _ := solve_columns solve n_s (fun i j => ZZ j i) (fun i j => TT j i) in
    Ok (Nda [n_x; n_s] (fun idx => C (nth 0 idx 0%nat) (nth 1 idx 0%nat))).

  (** 142-221.  The exception classes of lines 182 and 193 are not defined: NameError.  Line 188:
      the eigenvalues are sorted in descending order. *)
  Definition first_order (n_s n_x : nat) (f1 g1 : nda) : res nda :=
    let n_v := (n_s + n_x)%nat in
    let fs := fun i j => at_ f1 [i; j] in
    let fx := fun i j => at_ f1 [i; (n_s + j)%nat] in
    let fS := fun i j => at_ f1 [i; (n_v + j)%nat] in
    let fX := fun i j => at_ f1 [i; (n_v + n_s + j)%nat] in
    let gs := fun i j => at_ g1 [i; j] in
    let gx := fun i j => at_ g1 [i; (n_s + j)%nat] in
    let A := blocks n_s n_s eye (fun _ _ => 0) (fun i j => - fS i j) (fun i j => - fX i j) in
    let B := blocks n_s n_s gs gx fs fx in
    let* r := qz n_v A B (Fin (1 - 1 / 10 ^ 8)) in
    let '(SS, TT, _, ZZ) := r in
    if negb (pairs_ok n_v SS TT) then Err ExcName
    else
      let ev := eigval SS TT in
      let* ok := bk_check n_s n_x ev in
      if ok then first_rule n_s n_x SS TT ZZ
      else
        let eigval_s := rev (sorted (map ev (seq 0 n_v))) in
        match nth_error eigval_s (n_s - 1), nth_error eigval_s n_s with
        | Some ev_a, Some ev_b =>
            if ext_ltb ev_b ev_a
            then let* r := qz n_v A B (half_gap ev_a ev_b) in
                 let '(SS, TT, _, ZZ) := r in
                 first_rule n_s n_x SS TT ZZ
            else Err ExcName
        | _, _ => Err ExcIndex
        end.

  (** Arrays computed at order two that order three reads. *)
  Record second : Type := Second {
    so_V13 : nda; so_V1 : nda; so_K2 : nda; so_A : nda; so_Xss : nda; so_Xtt : nda; so_L : nda }.

  (** 151-158, 237-268.  [so_L] is f_snext + f_xnext X_s. *)
  Definition second_order (n_s n_x : nat) (f1 g1 f2 g2 sigma X_s : nda) : res second :=
    let n_v := (n_s + n_x)%nat in
    let* f_x := nd_slice f1 [all_; from_to n_s n_v] in
    let* f_snext := nd_slice f1 [all_; from_to n_v (n_v + n_s)] in
    let* f_xnext := nd_slice f1 [all_; from_ (n_v + n_s)] in
    let* g_s := nd_slice g1 [all_; to_ n_s] in
    let* g_x := nd_slice g1 [all_; from_to n_s n_v] in
    let* g_e := nd_slice g1 [all_; from_ n_v] in
    let* g_ss := nd_slice g2 [all_; to_ n_s; to_ n_s] in
    let* g_sx := nd_slice g2 [all_; to_ n_s; from_to n_s n_v] in
    let* g_xx := nd_slice g2 [all_; from_to n_s n_v; from_to n_s n_v] in
    (* 245-246 *)
    let* gxX := np_dot g_x X_s in
    let* V1_3 := nd_add g_s gxX in
    let* XV := np_dot X_s V1_3 in
    let* V1 := vstack [nd_eye n_s; X_s; V1_3; XV] in
    (* 248 *)
    let* gsxX := sdot g_sx X_s in
    let* gxxXX := mdot g_xx [X_s; X_s] in
    let* K2_ := nd_add g_ss (nd_scale 2 gsxX) in
    let* K2 := nd_add K2_ gxxXX in
    (* 249-252 *)
    let* fXX := np_dot f_xnext X_s in
    let* L := nd_add f_snext fXX in
    let* Lgx := np_dot L g_x in
    let* A := nd_add f_x Lgx in
    let* f2VV := mdot f2 [V1; V1] in
    let* LK2 := sdot L K2 in
    let* D := nd_add f2VV LK2 in
    (* 254 *)
    let* X_ss := solve_sylvester solve (to_mat A) (to_mat f_xnext) (to_mat V1_3) D in
    (* 258-265 *)
    let* g_ee := nd_slice g2 [all_; from_ n_v; from_ n_v] in
    let* Xge := np_dot X_s g_e in
    let* v := vstack [g_e; Xge] in
    let* f2nn := nd_slice f2 [all_; from_ n_v; from_ n_v] in
    let* K1 := mdot f2nn [v; v] in
    let* Lgee := sdot L g_ee in
    let* K2t := nd_add K1 Lgee in
    let* fXXss := sdot f_xnext X_ss in
    let* fXgg := mdot fXXss [g_e; g_e] in
    let* K3t := nd_add K2t fXgg in
    let* K_tt := against K3t sigma in
    (* 267-268 *)
    let* fSgx := np_dot f_snext g_x in
    let* Xgx := np_dot X_s g_x in
    let* XgxI := nd_add Xgx (nd_eye n_x) in
    let* fXr := np_dot f_xnext XgxI in
    let* L1 := nd_add f_x fSgx in
    let* L_tt := nd_add L1 fXr in
    let* X_tt := np_solve solve (to_mat L_tt) (nth 0 (shape K_tt) 0%nat) (fun i => - at_ K_tt [i]) in
    Ok (Second V1_3 V1 K2 A X_ss (Nda [n_x] (fun idx => X_tt (nth 0 idx 0%nat))) L).

  (** 275-301: X_sss. *)
  Definition third_states (n_s n_x : nat) (f1 g1 f2 g2 f3 g3 X_s : nda) (so : second) : res nda :=
    let n_v := (n_s + n_x)%nat in
    let V1_3 := so_V13 so in
    let V1 := so_V1 so in
    let X_ss := so_Xss so in
    let L := so_L so in
    let* f_xnext := nd_slice f1 [all_; from_ (n_v + n_s)] in
    let* g_x := nd_slice g1 [all_; from_to n_s n_v] in
    let* g_sx := nd_slice g2 [all_; to_ n_s; from_to n_s n_v] in
    let* g_xx := nd_slice g2 [all_; from_to n_s n_v; from_to n_s n_v] in
    let* g_sss := nd_slice g3 [all_; to_ n_s; to_ n_s; to_ n_s] in
    let* g_ssx := nd_slice g3 [all_; to_ n_s; to_ n_s; from_to n_s n_v] in
    let* g_sxx := nd_slice g3 [all_; to_ n_s; from_to n_s n_v; from_to n_s n_v] in
    let* g_xxx := nd_slice g3 [all_; from_to n_s n_v; from_to n_s n_v; from_to n_s n_v] in
    (* 282-285 *)
    let* gxXss := sdot g_x X_ss in
    let* V2_3 := nd_add (so_K2 so) gxXss in
    let* XV2 := np_dot X_s V2_3 in
    let* XssVV := mdot X_ss [V1_3; V1_3] in
    let* V2_4 := nd_add XV2 XssVV in
    let* V2 := vstack [nd_zeros [n_s; n_s; n_s]; X_ss; V2_3; V2_4] in
    (* 287-289 *)
    let* a1 := sdot g_ssx X_s in
    let* a2 := mdot g_sxx [X_s; X_s] in
    let* a3 := sdot g_sx X_ss in
    let* b1 := nd_add g_sss (nd_scale 3 a1) in
    let* b2 := nd_add b1 (nd_scale 3 a2) in
    let* b3 := nd_add b2 (nd_scale 2 a3) in
    let* a4 := mdot g_xx [X_ss; X_s] in
    let* a5 := mdot g_xxx [X_s; X_s; X_s] in
    let* b4 := nd_add (nd_scale 3 a4) a5 in
    let* K3 := nd_add b3 b4 in
    let* l3 := mdot X_ss [V1_3; V2_3] in
    let L3 := nd_scale 3 l3 in
    (* 294-299 *)
    let* d1 := mdot f3 [V1; V1; V1] in
    let* d2 := mdot f2 [V2; V1] in
    let* d3 := sdot L K3 in
    let* e1 := nd_add d1 (nd_scale 3 d2) in
    let* e2 := nd_add e1 d3 in
    let* d4 := sdot f_xnext L3 in
    let* D := nd_add e2 d4 in
    solve_sylvester solve (to_mat (so_A so)) (to_mat f_xnext) (to_mat V1_3) D.

  (** 303-350: X_stt. *)
  Definition third_risk (n_s n_x n_e : nat) (f1 g1 f2 g2 f3 g3 sigma X_s : nda) (so : second) (X_sss : nda) : res nda :=
    let n_v := (n_s + n_x)%nat in
    let V1_3 := so_V13 so in
    let V1 := so_V1 so in
    let X_ss := so_Xss so in
    let X_tt := so_Xtt so in
    let L0 := so_L so in
    let* f_xnext := nd_slice f1 [all_; from_ (n_v + n_s)] in
    let* g_x := nd_slice g1 [all_; from_to n_s n_v] in
    let* g_e := nd_slice g1 [all_; from_ n_v] in
    let* g_sx := nd_slice g2 [all_; to_ n_s; from_to n_s n_v] in
    let* g_xx := nd_slice g2 [all_; from_to n_s n_v; from_to n_s n_v] in
    let* g_ee := nd_slice g2 [all_; from_ n_v; from_ n_v] in
    let* g_se := nd_slice g2 [all_; to_ n_s; from_ n_v] in
    let* g_xe := nd_slice g2 [all_; from_to n_s n_v; from_ n_v] in
    let* g_see := nd_slice g3 [all_; to_ n_s; from_ n_v; from_ n_v] in
    let* g_xee := nd_slice g3 [all_; from_to n_s n_v; from_ n_v; from_ n_v] in
    (* 311-317 *)
    let* Xge := np_dot X_s g_e in
    let* W_l := vstack [g_e; Xge] in
    let I_e := nd_eye n_e in
    let* a1 := mdot g_xe [X_s; I_e] in
    let* V_sl := nd_add g_se a1 in
    let* a2 := mdot X_ss [V1_3; g_e] in
    let* a3 := sdot X_s V_sl in
    let* a4 := nd_add a2 a3 in
    let* W_sl := vstack [V_sl; a4] in
    (* 319-320 *)
    let* f3nn := nd_slice f3 [all_; all_; from_ n_v; from_ n_v] in
    let* f2nn := nd_slice f2 [all_; from_ n_v; from_ n_v] in
    let* k1 := mdot f3nn [V1; W_l; W_l] in
    let* k2 := mdot f2nn [W_sl; W_l] in
    let* k3 := nd_add k1 (nd_scale 2 k2) in
    (* 324-328 *)
    let* s1 := mdot X_ss [g_e; g_e] in
    let* s2 := sdot X_s g_ee in
    let* s3 := nd_add s1 s2 in
    let* SW_ll := vstack [g_ee; s3] in
    let* t1 := np_dot g_x X_tt in
    let* t2 := sdot g_x X_tt in
    let* t3 := np_dot X_s t2 in
    let* t4 := nd_add t3 X_tt in
    let* DW_ll := vstack [X_tt; t1; t4] in
    let* f2n := nd_slice f2 [all_; all_; from_ n_v] in
    let* k4 := mdot f2n [V1; SW_ll] in
    let* K_ee := nd_add k3 k4 in
    (* 330-332 *)
    let* q1 := against K_ee sigma in
    let* f2s := nd_slice f2 [all_; all_; from_ n_s] in
    let* q2 := mdot f2s [V1; DW_ll] in
    let* K_ := nd_add q1 q2 in
    (* 338-343 *)
    let* m1 := sdot g_sx X_tt in
    let* m2 := mdot g_xx [X_s; X_tt] in
    let* m3 := nd_add m1 m2 in
    let* m4 := mdot g_xee [X_s; I_e; I_e] in
    let* m5 := nd_add g_see m4 in
    let* m6 := against m5 sigma in
    let* L := nd_add m3 m6 in
    let* n1 := mdot X_sss [V1_3; g_e; g_e] in
    let* n2 := mdot X_ss [V_sl; g_e] in
    let* n3 := nd_add n1 (nd_scale 2 n2) in
    let* n4 := against n3 sigma in
    let* n5 := against g_ee sigma in
    let* n6 := nd_add n5 t2 in
    let* n7 := mdot X_ss [V1_3; n6] in
    let* M := nd_add n4 n7 in
    (* 345-350 *)
    let* u1 := np_dot L0 L in
    let* u2 := np_dot f_xnext M in
    let* u3 := nd_add K_ u1 in
    let* D := nd_add u3 u2 in
    solve_sylvester solve (to_mat (so_A so)) (to_mat f_xnext) (to_mat V1_3) D.

  (** Results of order one, two and three. *)
  Inductive solution :=
  | Order1 (X_s : nda)
  | Order2 (X_s X_ss X_tt : nda)
  | Order3 (X_s X_ss X_sss X_tt X_stt : nda).

  (** 105-357, [f] and [g] being the lists of derivatives of orders 0, 1, ...; 95: they have the same
      length.  Nothing is returned above order three (the value None, here an error). *)
  Definition state_perturb (f g : list nda) (sigma : nda) : res solution :=
    if negb (Nat.eqb (length f) (length g)) then Err ExcAssert
    else
      match f, g with
      | _ :: f1 :: f', _ :: g1 :: g' =>
          match shape f1, shape g1 with
          | [n_x; c], [_; cg] =>
              if Nat.ltb (c / 2) n_x then Err ExcValue        (* simplification: negative number of states *)
              else
                let n_s := (c / 2 - n_x)%nat in
                let n_e := (cg - n_x - n_s)%nat in
                let* X_s := first_order n_s n_x f1 g1 in
                match f', g' with
                | f2 :: f'', g2 :: g'' =>
                    let* so := second_order n_s n_x f1 g1 f2 g2 sigma X_s in
                    match f'', g'' with
                    | f3 :: f''', g3 :: _ =>
                        let* X_sss := third_states n_s n_x f1 g1 f2 g2 f3 g3 X_s so in
                        let* X_stt := third_risk n_s n_x n_e f1 g1 f2 g2 f3 g3 sigma X_s so X_sss in
                        match f''' with
                        | [] => Ok (Order3 X_s (so_Xss so) X_sss (so_Xtt so) X_stt)
                        | _ => Err ExcType
                        end
                    | _, _ => Ok (Order2 X_s (so_Xss so) (so_Xtt so))
                    end
                | _, _ => Ok (Order1 X_s)
                end
          | _, _ => Err ExcIndex
          end
      | _, _ => Err ExcValue
      end.

  (** 39-87 with return_dr=True: the rule around the steady state (s, x).  Lines 52-57, 70-74, 85 (A and B
      of the law of motion, only stored) are not modelled. *)
  Definition perturb_rule (s x : list R) (sol : solution) : res te :=
    let shifted X_tt := map (fun i => nth i x 0 + at_ X_tt [i] / 2) (seq 0 (length x)) in
    match sol with
    | Order1 X_s => te_make s x [X_s]
    | Order2 X_s X_ss X_tt => te_make s (shifted X_tt) [X_s; X_ss]
    | Order3 X_s X_ss X_sss X_tt X_stt =>
        let* X_s' := nd_add X_s (nd_scale (1 / 2) X_stt) in
        te_make s (shifted X_tt) [X_s'; X_ss; X_sss]
    end.
End State.
