(** Model of /repo/dolo/numeric/tensor.py.  Characters are their code points. *)
From Coq Require Import String Reals List Arith Bool.
From Verif.Base Require Import Prelude Sums Nda.
Import ListNotations.
Open Scope R_scope.

(* ------------------------------------------------------------------ *)
(** ** numpy functions called (their documented behaviour) *)

(** [np.tensordot(U, V, axes=(p, 0))]: axis [p] of U against the first axis of V. *)
Definition tensordot (U V : nda) (p : nat) : res nda :=
  match nth_error (shape U) p, shape V with
  | Some d, d' :: tv =>
      if Nat.eqb d d' then
        let ru := (length (shape U) - 1)%nat in
        Ok (Nda (firstn p (shape U) ++ skipn (S p) (shape U) ++ tv)
              (fun idx =>
                 let iu := firstn ru idx in
                 rsum d (fun j => at_ U (firstn p iu ++ j :: skipn p iu) * at_ V (j :: skipn ru idx))))
      else Err ExcValue
  | _, _ => Err ExcIndex
  end.

(** Labels of einsum: letters only (97 is 'a', 122 is 'z'; capitals are not generated here). *)
Definition letter (c : nat) : bool := Nat.leb 97 c && Nat.leb c 122.

(** Size of a label: all its axes have the same size, but axes of size 1 are broadcast. *)
Fixpoint dim_of (ps : list (nat * nat)) (l d : nat) : option nat :=
  match ps with
  | [] => Some d
  | (l', d') :: r =>
      if Nat.eqb l l' then
        (if Nat.eqb d' d || Nat.eqb d' 1 then dim_of r l d else if Nat.eqb d 1 then dim_of r l d' else None)
      else dim_of r l d
  end.

Definition clip (d i : nat) : nat := if Nat.eqb d 1 then 0%nat else i.
Fixpoint clips (sh idx : list nat) : list nat :=
  match sh, idx with d :: sh', i :: idx' => clip d i :: clips sh' idx' | _, _ => [] end.

(** Values of the labels. *)
Definition setl (e : nat -> nat) (l v : nat) : nat -> nat := fun x => if Nat.eqb x l then v else e x.
Fixpoint envl (e : nat -> nat) (ls vs : list nat) : nat -> nat :=
  match ls, vs with l :: ls', v :: vs' => envl (setl e l v) ls' vs' | _, _ => e end.

Fixpoint sum_labels (ls : list nat) (dim : nat -> nat) (e : nat -> nat) (f : (nat -> nat) -> R) : R :=
  match ls with
  | [] => f e
  | l :: r => rsum (dim l) (fun v => sum_labels r dim (setl e l v) f)
  end.

Fixpoint einsum_term (ins : list (list nat)) (ops : list nda) (e : nat -> nat) : R :=
  match ins, ops with
  | labels :: ins', op :: ops' => at_ op (clips (shape op) (map e labels)) * einsum_term ins' ops' e
  | _, _ => 1
  end.

Fixpoint no_dup (l : list nat) : bool :=
  match l with [] => true | x :: r => negb (existsb (Nat.eqb x) r) && no_dup r end.

Definition ranks_ok (ins : list (list nat)) (ops : list nda) : bool :=
  Nat.eqb (length ins) (length ops) &&
  forallb (fun p => Nat.eqb (length (fst p)) (length (shape (snd p)))) (combine ins ops).

Fixpoint dims (ps : list (nat * nat)) (ls : list nat) : bool :=
  match ls with [] => true | l :: r => match dim_of ps l 1 with Some _ => dims ps r | None => false end end.

(** [np.einsum(ins -> out, ops)]. *)
Definition einsum (ins : list (list nat)) (out : list nat) (ops : list nda) : res nda :=
  let labels := concat ins in
  if negb (forallb letter labels) then Err ExcValue
  else if negb (ranks_ok ins ops) then Err ExcValue
  else if negb (no_dup out && forallb (fun l => existsb (Nat.eqb l) labels) out) then Err ExcValue
  else
    let ps := combine labels (concat (map shape ops)) in
    if negb (dims ps labels) then Err ExcValue
    else
      let dim := fun l => match dim_of ps l 1 with Some d => d | None => 1%nat end in
      let summed := filter (fun l => negb (existsb (Nat.eqb l) out)) (nodup Nat.eq_dec labels) in
      Ok (Nda (map dim out)
            (fun idx => sum_labels summed dim (envl (fun _ => 0%nat) out idx) (einsum_term ins ops))).

(** [a.take(ind, axis)] for a list of indices. *)
Definition take (a : nda) (ind : list nat) (axis : nat) : res nda :=
  match nth_error (shape a) axis with
  | None => Err ExcValue
  | Some d =>
      if forallb (fun i => Nat.ltb i d) ind
      then Ok (Nda (firstn axis (shape a) ++ length ind :: skipn (S axis) (shape a))
                 (fun idx => at_ a (firstn axis idx ++ nth (nth axis idx 0%nat) ind 0%nat :: skipn (S axis) idx)))
      else Err ExcIndex
  end.

(* ------------------------------------------------------------------ *)
(** ** tensor.py *)

(** 4-17. *)
Fixpoint multidot_loop (resp : nda) (mats : list nda) (p : nat) : res nda :=
  match mats with
  | [] => Ok resp
  | c :: r => bind (tensordot resp c p) (fun resp' => multidot_loop resp' r p)
  end.
(** Simplification: more matrices than axes (a negative axis) is refused. *)
Definition multidot_old (ten : nda) (mats : list nda) : res nda :=
  if Nat.ltb (length (shape ten)) (length mats) then Err ExcValue
  else multidot_loop ten mats (length (shape ten) - length mats).

(** 25-32: labels of the matrices; [ic] is the next free character.  A matrix of rank 0 or 1 gets one
    label. *)
Fixpoint c_labels (fC : list nat) (shapes : list (list nat)) (ic : nat) : res (list (list nat)) :=
  match shapes with
  | [] => Ok []
  | sh :: r =>
      match fC with
      | [] => Err ExcIndex
      | f :: fC' =>
          let k := (length sh - 1)%nat in
          bind (c_labels fC' r (ic + k)) (fun rest => Ok ((f :: seq ic k) :: rest))
      end
  end.

(** 21-37.  M_syms[-0:] is the whole list and M_syms[:-0] is empty. *)
Definition mdot_signature (sm : list nat) (shapes : list (list nat)) : res (list (list nat) * list nat) :=
  let r := length sm in
  let k := length shapes in
  let m_syms := seq 97 r in
  let fC := if Nat.eqb k 0 then m_syms else skipn (r - k) m_syms in
  bind (c_labels fC shapes (97 + r)) (fun c_syms =>
  let kept := if Nat.eqb k 0 then [] else firstn (r - k) m_syms in
  Ok (m_syms :: c_syms, kept ++ concat (map (fun c => skipn 1 c) c_syms))).

(** 43-45. *)
Definition mdot (M : nda) (C : list nda) : res nda :=
  bind (mdot_signature (shape M) (map shape C)) (fun sig =>
  einsum (fst sig) (snd sig) (M :: C)).

(** 48-55.  A 0-d array has no axis -1: IndexError. *)
Definition sdot (U V : nda) : res nda :=
  if Nat.eqb (length (shape U)) 0 then Err ExcIndex
  else tensordot U V (length (shape U) - 1).

(** 58-63.  [axes[n]] raises when there are fewer axes than index lists. *)
Fixpoint multitake (a : nda) (inds : list (list nat)) (axes : list nat) : res nda :=
  match inds with
  | [] => Ok a
  | ind :: r =>
      match axes with
      | [] => Err ExcIndex
      | axe :: axes' => bind (take a ind axe) (fun a' => multitake a' r axes')
      end
  end.
