(** The size of a shock of one standard deviation. *)
From Coq Require Import String Reals List Arith.
From Verif.Base Require Import Prelude Arrays.
From Verif.Model Require Import Distributions Processes Response.
Import ListNotations.
Open Scope R_scope.

(** Variance of the [i]-th component of the shocks.  [UNormal(sigma, mu)] is the normal law of scale [sigma]
    (distribution.py:414, 418, 425); [LogNormal(sigma, mu)] the law of the exponential of such a variable.
    Unspecified ([None]) for the other laws. *)
Definition shock_variance (law : exo_law) (i : nat) : option R :=
  match law with
  | LNormal self => Some (mget (nm_Sigma self) i i)
  | LVar1 v => Some (mget (v_Sigma v) i i)
  | LAr1 _ sigma _ => Some sigma
  | LUNormal sigma _ => Some (sigma * sigma)
  | LLogNormal sigma mu => Some ((exp (sigma * sigma) - 1) * exp (2 * mu + sigma * sigma))
  | _ => None
  end.

Definition one_deviation (law : exo_law) (i : nat) (v : R) : Prop :=
  0 <= v /\ shock_variance law i = Some (v * v).

(** The variable [name] is the [i]-th of the list, and is not listed before. *)
Definition listed_at (name : string) (l : list string) (i : nat) : Prop :=
  nth_error l i = Some name /\ forall j, (j < i)%nat -> nth_error l j <> Some name.
