(** Vocabulary for statements on higher-order perturbation.  All variables are deviations from the
    steady state.  The model is
      E f(s, x, s', x') = 0,   s' = g(s, x, lam eps),
    with n_s states, n_x controls, n_e shocks and lam the scale of the shocks. *)
From Coq Require Import Reals List Arith.
From Verif.Base Require Import Prelude Ext Sums Nda.
From Verif.Spec Require Import Perturbation.
Import ListNotations.
Open Scope R_scope.

Definition vector := nat -> R.

(** Linear, bilinear and trilinear maps given by their coefficients. *)
Definition lin (n : nat) (A : nat -> nat -> R) (u : vector) (i : nat) : R := rsum n (fun j => A i j * u j).
Definition bil (n m : nat) (A : nat -> nat -> nat -> R) (u v : vector) (i : nat) : R :=
  rsum n (fun j => rsum m (fun k => A i j k * u j * v k)).
Definition tri (n m p : nat) (A : nat -> nat -> nat -> nat -> R) (u v w : vector) (i : nat) : R :=
  rsum n (fun j => rsum m (fun k => rsum p (fun l => A i j k l * u j * v k * w l))).

(** Taylor polynomials without constant. *)
Definition poly2 (n : nat) A1 A2 (u : vector) (i : nat) : R := lin n A1 u i + / 2 * bil n n A2 u u i.
Definition poly3 (n : nat) A1 A2 A3 (u : vector) (i : nat) : R := poly2 n A1 A2 u i + / 6 * tri n n n A3 u u u i.

Definition total (n : nat) (u : vector) : R := rsum n (fun j => Rabs (u j)).

(** Close to the steady state the m components of [f] are their Taylor polynomial of order 2 (or 3), up
    to a remainder of the next order. *)
Definition expands2 (n m : nat) (f : vector -> vector) A1 A2 : Prop :=
  exists K d, 0 < d /\ forall u, (forall j, (j < n)%nat -> Rabs (u j) <= d) ->
    forall i, (i < m)%nat -> Rabs (f u i - poly2 n A1 A2 u i) <= K * total n u ^ 3.
Definition expands3 (n m : nat) (f : vector -> vector) A1 A2 A3 : Prop :=
  exists K d, 0 < d /\ forall u, (forall j, (j < n)%nat -> Rabs (u j) <= d) ->
    forall i, (i < m)%nat -> Rabs (f u i - poly3 n A1 A2 A3 u i) <= K * total n u ^ 4.

(** Vectors one above the other; [n] is the length of the first. *)
Definition glue (n : nat) (u v : vector) : vector := fun j => if Nat.ltb j n then u j else v (j - n)%nat.

(** Shocks with M values eps_k of probability p_k, mean zero and covariance sigma. *)
Record shocks (M n_e : nat) (p : vector) (eps : nat -> vector) (sigma : nat -> nat -> R) : Prop := {
  sh_mass : rsum M p = 1;
  sh_mean : forall j, (j < n_e)%nat -> rsum M (fun k => p k * eps k j) = 0;
  sh_cov : forall i j, (i < n_e)%nat -> (j < n_e)%nat -> rsum M (fun k => p k * (eps k i * eps k j)) = sigma i j }.

(** Residual of the equations at the state s when the scale of the shocks is lam and controls follow
    the rule [phi s lam]. *)
Definition residual (n_s n_x M : nat) (p : vector) (eps : nat -> vector)
    (f g : vector -> vector) (phi : vector -> R -> vector) (s : vector) (lam : R) (i : nat) : R :=
  rsum M (fun k => p k *
    (let x := phi s lam in
     let s' := g (glue n_s s (glue n_x x (fun j => lam * eps k j))) in
     f (glue n_s s (glue n_x x (glue n_s s' (phi s' lam)))) i)).

(** Along every direction (h, mu) of states and scale, the residuals are of order q. *)
Definition accurate (q n_s n_x M : nat) (p : vector) (eps : nat -> vector)
    (f g : vector -> vector) (phi : vector -> R -> vector) : Prop :=
  forall h mu, exists K d, 0 < d /\ forall t, Rabs t <= d -> forall i, (i < n_x)%nat ->
    Rabs (residual n_s n_x M p eps f g phi (fun j => t * h j) (t * mu) i) <= K * Rabs t ^ q.

(** The rule of order 2: X_s s + 1/2 X_ss[s, s] + lam^2/2 X_tt. *)
Definition rule2 (n_s : nat) X_s X_ss (X_tt : vector) (s : vector) (lam : R) (i : nat) : R :=
  poly2 n_s X_s X_ss s i + lam ^ 2 / 2 * X_tt i.
(** The rule of order 3: also 1/6 X_sss[s, s, s] + lam^2/2 X_stt[s]. *)
Definition rule3 (n_s : nat) X_s X_ss X_sss (X_tt : vector) X_stt (s : vector) (lam : R) (i : nat) : R :=
  poly3 n_s X_s X_ss X_sss s i + lam ^ 2 / 2 * (X_tt i + lin n_s X_stt s i).

(** Coefficients stored in arrays. *)
Definition vec_of (a : nda) : vector := fun i => at_ a [i].
Definition coef2 (a : nda) : nat -> nat -> R := fun i j => at_ a [i; j].
Definition coef3 (a : nda) : nat -> nat -> nat -> R := fun i j k => at_ a [i; j; k].
Definition coef4 (a : nda) : nat -> nat -> nat -> nat -> R := fun i j k l => at_ a [i; j; k; l].

(** The second derivatives of the n components do not depend on the order of differentiation. *)
Definition symmetric2 (n m : nat) (A : nat -> nat -> nat -> R) : Prop :=
  forall i j k, (i < n)%nat -> (j < m)%nat -> (k < m)%nat -> A i j k = A i k j.
(** Nor the third ones. *)
Definition symmetric3 (n m : nat) (A : nat -> nat -> nat -> nat -> R) : Prop :=
  forall i j k l, (i < n)%nat -> (j < m)%nat -> (k < m)%nat -> (l < m)%nat -> A i j k l = A i k j l /\ A i j k l = A i j l k.

(** The third moments of the shocks are zero. *)
Definition unskewed (M n_e : nat) (p : vector) (eps : nat -> vector) : Prop :=
  forall a b c, (a < n_e)%nat -> (b < n_e)%nat -> (c < n_e)%nat -> rsum M (fun k => p k * (eps k a * eps k b * eps k c)) = 0.

(** In second derivatives of the transition, states and controls do not interact. *)
Definition states_controls_separate (n_s n_x : nat) (A : nat -> nat -> nat -> R) : Prop :=
  forall i j a, (i < n_s)%nat -> (j < n_s)%nat -> (a < n_x)%nat -> A i j (n_s + a)%nat = 0.

(** Jacobians of g and f by group of variables. *)
Definition lead_of (n_s n_x : nat) (f1 : nda) : nat -> nat -> R :=
  lead n_s (fun i j => coef2 f1 i (n_s + n_x + j)%nat) (fun i j => coef2 f1 i (n_s + n_x + n_s + j)%nat).
Definition lag_of (n_s n_x : nat) (f1 g1 : nda) : nat -> nat -> R :=
  lag n_s (coef2 g1) (fun i j => coef2 g1 i (n_s + j)%nat) (coef2 f1) (fun i j => coef2 f1 i (n_s + j)%nat).

(** What the QZ routine returns on the pencil of the model are generalised Schur decompositions that
    split at the number of states. *)
Definition schur_routine (n_s n_x : nat) (f1 g1 : nda) (qz : nat -> (nat -> nat -> R) -> (nat -> nat -> R) -> ext ->
    res ((nat -> nat -> R) * (nat -> nat -> R) * (nat -> nat -> R) * (nat -> nat -> R))) : Prop :=
  forall c S T Q Z, qz (n_s + n_x)%nat (lead_of n_s n_x f1) (lag_of n_s n_x f1 g1) c = Ok (S, T, Q, Z) ->
    generalized_schur (n_s + n_x) (lead_of n_s n_x f1) (lag_of n_s n_x f1 g1) S T Q Z /\
    splits_at n_s (n_s + n_x) S /\ splits_at n_s (n_s + n_x) T.
