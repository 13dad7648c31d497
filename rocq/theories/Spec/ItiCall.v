(** What the options of improved time iteration mean. *)
From Coq Require Import String Reals List Arith Bool.
From Verif.Base Require Import Prelude Arrays Sums Ext.
From Verif.Spec Require Import Euler ImprovedTimeIteration.
From Verif.Model Require Import Grids Processes DecisionRule TimeIteration TimeIterationCall ImprovedTimeIteration ItiCall.
Import ListNotations.
Open Scope R_scope.

(** Constraints are imposed: [complementarities] (obsolete) decides if it is given, otherwise
    [ignore_constraints] must not be set. *)
Definition constraints_imposed (a : iti_args) : Prop :=
  ia_compl a = Some true \/ ia_compl a = None /\ ia_ignore a = false.

Definition iti_process_used (md : ti_model) (a : iti_args) (d : dexo) : Prop :=
  ia_process a = Some d \/ ia_process a = None /\ d = tm_process md.

(** The two names accepted. *)
Definition interp_wanted (a : iti_args) (k : interp) : Prop :=
  ia_interp a = "cubic"%string /\ k = Cubic \/ ia_interp a = "linear"%string /\ k = Linear.

(** First controls: the calibrated ones everywhere, or the values of the rule given. *)
Definition starts_at (md : ti_model) (a : iti_args) (d : dexo) (c0 : tensor) : Prop :=
  let s := endo_nodes (tm_endo_grid md) in
  match ia_dr0 a with
  | NoStart => forall i n k, c0 i n k = nth k (tm_x0 md) 0
  | StartRule e => forall i, (i < Nat.max (ex_n d) 1)%nat -> exists p, e i s = Ok p /\
      match p with
      | P2 rows => length rows = length s /\ forall n k, (n < length s)%nat -> c0 i n k = nth k (nth n rows []) 0
      | P1 r => forall n k, c0 i n k = nth k r 0
      end
  | StartOther => False
  end.

(** One pass whose Newton step is any [tot] with [step x tot]: cut in half until the error decreases, or
    until the last cut allowed. *)
Definition pass_by (err : tensor -> R) (step : tensor -> tensor -> Prop) (maxb : nat) (x y : tensor) : Prop :=
  exists tot b, step x tot /\ (b < maxb)%nat /\
    (forall i n k, y i n k = x i n k - tot i n k * (/ 2) ^ b) /\
    (err y < err x \/ b = (maxb - 1)%nat) /\
    (forall c, (c < b)%nat -> err x <= err (fun i n k => x i n k - tot i n k * (/ 2) ^ c)).

(** What scipy.sparse.linalg.gmres promises for [d] unknowns: when the code it returns is 0, the residual of the linear
    system is within the relative tolerance, in Euclidean norm. *)
Definition meets_tolerance (d : nat) (gmres : R -> ((nat -> R) -> nat -> R) -> (nat -> R) -> (nat -> R) * nat) : Prop :=
  forall tol A b, let y := fst (gmres tol A b) in snd (gmres tol A b) = 0%nat ->
    sqrt (rsum d (fun q => (b q - A y q) ^ 2)) <= tol * sqrt (rsum d (fun q => b q ^ 2)).
