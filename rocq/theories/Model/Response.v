(** The default impulse of [response]: dolo/algos/simulations.py, lines 14-26. *)
From Coq Require Import String Reals List Arith ZArith.
From Verif.Base Require Import Prelude Arrays.
From Verif.Model Require Import Grids Discretization Distributions Processes Simulation.
Import ListNotations.
Open Scope R_scope.

(** What [model.exogenous] may be.  [LNormal], [LUNormal], [LLogNormal] and [LOther] are i.i.d. laws
    (distribution.py:562, 401, 487); [LOther] stands for those with neither attribute [Σ] nor [σ]:
    ConstantProcess, EquiprobableDistribution, FiniteDistribution, Bernouilli, Uniform, Beta,
    ProductDistribution, Truncation, Mixture.  [LAr1] and [LVar1]: processes.py:373, 497.  [LNoResponse]:
    MarkovChain and ProductProcess, which have neither attribute nor a method [response]. *)
Inductive exo_law : Type :=
| LNormal (self : normal)
| LUNormal (sigma mu : R)
| LLogNormal (sigma mu : R)
| LOther
| LAr1 (rho sigma mu : R)
| LVar1 (v : var1)
| LNoResponse.

(** The attribute [Σ] (distribution.py:575, processes.py:508). *)
Definition attr_Sigma (law : exo_law) : res mat :=
  match law with
  | LNormal self => Ok (nm_Sigma self)
  | LVar1 v => Ok (v_Sigma v)
  | _ => Err ExcAttribute
  end.

(** The attribute [σ] (distribution.py:410, 500, processes.py:380). *)
Definition attr_sigma (law : exo_law) : res R :=
  match law with
  | LUNormal sigma _ | LLogNormal sigma _ | LAr1 _ sigma _ => Ok sigma
  | _ => Err ExcAttribute
  end.

(** [numpy.sqrt]: not a number (and a warning) below zero. *)
Definition np_sqrt (x : R) : res R := if Rlt_dec x 0 then Err ResultNaN else Ok (sqrt x).

(** [Σ[i, i]]. *)
Definition diagonal_entry (Sg : mat) (i : nat) : res R :=
  if andb (Nat.ltb i (nrow Sg)) (Nat.ltb i (ncol Sg)) then Ok (mget Sg i i) else Err ExcIndex.

(** 18-24.  The bare [except] catches everything the first branch raises. *)
Definition default_impulse (law : exo_law) (i : nat) : res R :=
  match bind (attr_Sigma law) (fun Sg => diagonal_entry Sg i) with
  | Ok v => np_sqrt v
  | Err _ => bind (attr_sigma law) np_sqrt
  end.

(** The [response] method the law has (processes.py:98-103, 482-493, 619-627). *)
Definition kind_of (law : exo_law) : option exo_kind :=
  match law with
  | LNormal _ | LUNormal _ _ | LLogNormal _ _ | LOther => Some KIid
  | LAr1 rho sigma mu => Some (KAr1 rho sigma mu)
  | LVar1 v => Some (KVar1 v)
  | LNoResponse => None
  end.

(** 14-40: the call [response(model, dr, varname, T=T, impulse=impulse)].  An impulse which is not a number
    is not followed further. *)
Definition response_call {rng} (seeded : Z -> rng) rand skip (md : sim_model) (dr : rule) dflt (law : exo_law)
    (varname : string) (T : nat) (impulse : option R) (seed : Z) (r : rng) : res sim_out * rng :=
  match name_index varname (sm_exogenous md) with
  | Err e => (Err e, r)
  | Ok i =>
      match (match impulse with Some v => Ok v | None => default_impulse law i end) with
      | Err e => (Err e, r)
      | Ok v => match kind_of law with
                | Some k => response seeded rand skip md dr dflt k (Some i) T v seed r
                | None => (Err ExcAttribute, r)
                end
      end
  end.
