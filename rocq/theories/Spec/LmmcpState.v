(** States of the main loop of lmmcp. *)
From Coq Require Import Reals Arith.
From Verif.Base Require Import Prelude Sums Ext.
From Verif.Model Require Import Lmmcp.
Open Scope R_scope.

(** The stored values belong to the stored points. *)
Definition consistent nan o n F DF lb ub (s : mstate) : Prop :=
  m_phi s = Phi nan o n F lb ub (m_x s) /\ m_psi s = Psi_of n (m_phi s) /\
  m_dphi s = DPhi nan o n F DF lb ub (m_x s) /\ m_dpsi s = DPsi_of n (m_dphi s) (m_phi s) /\
  b_phi s = Phi nan o n F lb ub (b_x s) /\ b_psi s = Psi_of n (b_phi s) /\
  b_dphi s = DPhi nan o n F DF lb ub (b_x s) /\ b_dpsi s = DPsi_of n (b_dphi s) (b_phi s).
