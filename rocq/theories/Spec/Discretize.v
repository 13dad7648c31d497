(** What is expected of a discretisation. *)
From Coq Require Import String Reals List Arith.
From Verif.Base Require Import Prelude Sums Arrays.
From Verif.Spec Require Import Law Markov.
From Verif.Model Require Import Discretization Distributions Processes Discretize.
Import ListNotations.
Open Scope R_scope.

(** The kinds of discretised processes, by the name one asks them with. *)
Definition kind_of (o : out) : option string :=
  match o with OIid _ => Some "iid"%string | OChain _ => Some "mc"%string | OGdp _ => Some "gdp"%string | ONone => None end.

Definition autoregressive (x : proc) : Prop :=
  match x with PAr1 _ _ _ | PVar1 _ => True | _ => False end.
Definition markov (x : proc) : Prop := match x with PChain _ => True | _ => False end.
(** Independent draws: every process but chains, autoregressive processes and products of processes. *)
Definition independent (x : proc) : Prop :=
  match x with PChain _ | PAr1 _ _ _ | PVar1 _ | PProcs _ => False | PBare b => b = true | _ => True end.

(** As many weights as points, nonnegative, of sum one; a square matrix of probabilities, with a point by state; a law from
    each node. *)
Definition probability (o : out) : Prop :=
  match o with
  | OIid d => vlen (iid_weights d) = iid_n d /\ is_law (iid_n d) (iid_weight d)
  | OChain c => nrow (fst c) = nrow (snd c) /\ stochastic (nrow (snd c)) (snd c)
  | OGdp g => forall i, (i < nrow (gdp_nodes g))%nat -> is_law (gdp_k g) (gdp_iweights g i)
  | ONone => True
  end.

(** The points have [n] coordinates. *)
Definition coordinates (n : nat) (o : out) : Prop :=
  match o with
  | OIid d => iid_d d = n
  | OChain c => ncol (fst c) = n
  | OGdp g => ncol (gdp_nodes g) = n /\ forall i j, length (gdp_inodes g i j) = n
  | ONone => True
  end.

Definition everyp {A} (P : A -> Prop) : list A -> Prop :=
  fix go l := match l with [] => True | x :: l' => P x /\ go l' end.

(** The discrete laws, Bernouilli laws and Markov chains of a process are given with probabilities. *)
Fixpoint given_probabilities (x : proc) : Prop :=
  match x with
  | PLaw d => vlen (iid_weights d) = iid_n d /\ is_law (iid_n d) (iid_weight d)
  | PBernouilli pi => 0 <= pi <= 1
  | PChain c => nrow (fst c) = nrow (snd c) /\ stochastic (nrow (snd c)) (snd c)
  | PLaws l | PProcs l => everyp given_probabilities l
  | PMixture index dists => given_probabilities index /\ everyp (fun kv => given_probabilities (snd kv)) dists
  | _ => True
  end.

(** No number of points is zero. *)
Fixpoint positive_orders (k : kwargs) : Prop :=
  match k with
  | Kw N _ _ o _ =>
      match N with Some (NInt n) => (1 <= n)%nat | Some (NList l) => Forall (fun n => (1 <= n)%nat) l | None => True end /\
      match o with Some o' => positive_options o' | None => True end
  end
with positive_options (o : kwoptions) : Prop :=
  match o with KDict k => positive_orders k | KList l => everyp positive_orders l end.

(** One-dimensional quadrature rules for the weight exp(-t^2), with nonnegative weights. *)
Definition weighted_rule (herm : nat -> res ((nat -> R) * (nat -> R))) : Prop :=
  forall n x w, (1 <= n)%nat -> herm n = Ok (x, w) -> rsum n w = sqrt PI /\ forall i, (i < n)%nat -> 0 <= w i.

(** Triangular factors are those of square matrices, and have their size. *)
Definition square_factors (chol : mat -> res mat) : Prop :=
  forall A L, chol A = Ok L -> nrow A = ncol A /\ nrow L = nrow A /\ ncol L = nrow A.
