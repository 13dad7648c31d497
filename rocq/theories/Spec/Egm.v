(** The endogenous grid method, stated without any loop. *)
From Coq Require Import Reals List Arith.
From Verif.Base Require Import Prelude Sums Ext.
From Verif.Model Require Import Processes TimeIteration.
Import ListNotations.
Open Scope R_scope.

(** [y] is the projection of [x] on [l, u]: it is within the bounds, equal to [x] if [x] is, and to the bound
    crossed otherwise. *)
Definition projection (l u : ext) (x y : R) : Prop :=
  ext_le_l l y /\ ext_le_r y u /\
  (ext_le_l l x -> ext_le_r x u -> y = x) /\
  (~ ext_le_l l x -> l = Fin y) /\ (~ ext_le_r x u -> u = Fin y).

(** Control [x] and state [s'] implied by the post-state [a] at exogenous point [m], when the next point is [M j] with
    probability [w j], [j < n], and the rule followed then is [X j]: z = E[h(M', S', X'(S'))] with S' = gt(m, a, M'),
    x = tau(m, a, z), s' = atau(m, a, x). *)
Definition egm_response (n_h n : nat) (w : nat -> R) (M : nat -> list R) (X : nat -> R -> R)
    (h : list R -> R -> R -> nat -> R) (gt : list R -> R -> list R -> R) (tau : list R -> R -> list R -> R)
    (atau : list R -> R -> R -> R) (m : list R) (a x s' : R) : Prop :=
  exists z, length z = n_h /\
    (forall k, (k < n_h)%nat -> nth k z 0 = rsum n (fun j => let S := gt m a (M j) in w j * h (M j) S (X j S) k)) /\
    x = tau m a z /\ s' = atau m a x.

(** [e] is the largest distance between two arrays of shape (n, p). *)
Definition distance2_is (n p : nat) (x y : nat -> nat -> R) (e : R) : Prop :=
  (forall i q, (i < n)%nat -> (q < p)%nat -> Rabs (x i q - y i q) <= e) /\
  (exists i q, (i < n)%nat /\ (q < p)%nat /\ Rabs (x i q - y i q) = e).

(** One step of the method: from controls [xa] at states [sa], the rule [X] that interpolates them, projected on the
    bounds of each exogenous point, then the controls [xa'] at states [sa'] implied by expectations under [X]. *)
Definition egm_step (exo : dexo) (is_iid : bool) (a : nat -> R) (N_a n_h : nat)
    (h : list R -> R -> R -> nat -> R) (gt : list R -> R -> list R -> R) (tau : list R -> R -> list R -> R)
    (atau : list R -> R -> R -> R) (lb ub : list R -> R -> ext) (el : (nat -> R) -> (nat -> R) -> R -> R)
    (X : nat -> R -> R) (sa xa sa' xa' : nat -> nat -> R) : Prop :=
  (forall i ss, let c := if is_iid then 0%nat else i in
     projection (lb (ex_node exo c) ss) (ub (ex_node exo c) ss) (el (sa c) (xa c) ss) (X i ss)) /\
  (forall i p, (i < ex_n exo)%nat -> (p < N_a)%nat ->
     egm_response n_h (dp_n (ex_dp exo) i) (dp_weight (ex_dp exo) i) (dp_node (ex_dp exo) i) X
                 h gt tau atau (ex_node exo i) (a p) (xa' i p) (sa' i p)).

(** States and controls of shape (n, p) are together at most [e] apart: the sum of their largest distances. *)
Definition apart (n p : nat) (sa xa sa' xa' : nat -> nat -> R) (e : R) : Prop :=
  exists es ex, es + ex <= e /\
    (forall i q, (i < n)%nat -> (q < p)%nat -> Rabs (sa i q - sa' i q) <= es) /\
    (forall i q, (i < n)%nat -> (q < p)%nat -> Rabs (xa i q - xa' i q) <= ex).
