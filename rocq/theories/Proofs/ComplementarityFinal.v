From Coq Require Import Reals Arith Lia Lra.
From Verif.Base Require Import Prelude Sums Norms Ext.
From Verif.Model Require Import Complementarity LinearSolve.
From Verif.Spec Require Import Complementarity LinearAlgebra.
From Verif.Proofs Require Import FischerBurmeister GaussFinal.
Open Scope R_scope.


Lemma smooth_arr_value : forall n_ms N n_x f x a b i n j,
    (i < n_ms)%nat -> (n < N)%nat -> (j < n_x)%nat ->
    smooth_arr n_ms N n_x f x a b i n j = smooth_FB (f i n j) (x i n j) (a i n j) (b i n j).
Proof.
  intros n_ms N n_x f x a b i n j Hi Hn Hj. unfold smooth_arr.
  set (val := fun i n j => smooth_FB (f i n j) (x i n j) (a i n j) (b i n j)).
  set (P3 := fun (i0 n0 : nat) (V0 : nat -> nat -> nat -> R) (k : nat) (V : nat -> nat -> nat -> R) =>
    forall i' n' j', V i' n' j' =
      if andb (Nat.eqb i' i0) (andb (Nat.eqb n' n0) (Nat.ltb j' k)) then val i' n' j' else V0 i' n' j').
  set (P2 := fun (i0 : nat) (V0 : nat -> nat -> nat -> R) (k : nat) (V : nat -> nat -> nat -> R) =>
    forall i' n' j', V i' n' j' =
      if andb (Nat.eqb i' i0) (andb (Nat.ltb n' k) (Nat.ltb j' n_x)) then val i' n' j' else V0 i' n' j').
  set (P1 := fun (k : nat) (V : nat -> nat -> nat -> R) =>
    forall i' n' j', V i' n' j' =
      if andb (Nat.ltb i' k) (andb (Nat.ltb n' N) (Nat.ltb j' n_x)) then val i' n' j' else 0).
  match goal with |- for_range ?m ?body ?init i n j = _ =>
    assert (H : P1 m (for_range m body init)) end.
  { apply for_range_inv.
    - intros i' n' j'. destruct (Nat.ltb_spec i' 0); [lia|reflexivity].
    - intros k V Hk HV.
      match goal with |- P1 _ (for_range ?m ?body ?init) =>
        assert (H : P2 k init m (for_range m body init)) end.
      { apply for_range_inv.
        - intros i' n' j'. destruct (Nat.ltb_spec n' 0); [lia|]. rewrite Bool.andb_false_r. reflexivity.
        - intros k2 V2 Hk2 HV2.
          match goal with |- P2 _ _ _ (for_range ?m ?body ?init) =>
            assert (H : P3 k k2 init m (for_range m body init)) end.
          { apply for_range_inv.
            - intros i' n' j'. destruct (Nat.ltb_spec j' 0); [lia|]. rewrite !Bool.andb_false_r. reflexivity.
            - intros k3 V3 Hk3 HV3 i' n' j'. cbv beta. rewrite HV3.
              destruct (Nat.eqb_spec i' k), (Nat.eqb_spec n' k2), (Nat.eqb_spec j' k3),
                (Nat.ltb_spec j' k3), (Nat.ltb_spec j' (S k3)); simpl; try lia; subst; reflexivity. }
          intros i' n' j'. rewrite H, HV2.
          destruct (Nat.eqb_spec i' k), (Nat.eqb_spec n' k2), (Nat.ltb_spec j' n_x),
                (Nat.ltb_spec n' k2), (Nat.ltb_spec n' (S k2)); simpl; try lia; reflexivity. }
      intros i' n' j'. rewrite H, HV.
      destruct (Nat.eqb_spec i' k), (Nat.ltb_spec n' N), (Nat.ltb_spec j' n_x),
                (Nat.ltb_spec i' k), (Nat.ltb_spec i' (S k)); simpl; try lia; reflexivity. }
  rewrite H. destruct (Nat.ltb_spec i n_ms), (Nat.ltb_spec n N), (Nat.ltb_spec j n_x); try lia. reflexivity.
Qed.

Lemma smooth_arr_zero_iff : forall (n_ms N n_x : nat) (f x a b : nat -> nat -> nat -> R) i n j,
    (i < n_ms)%nat -> (n < N)%nat -> (j < n_x)%nat -> a i n j <= b i n j ->
    (smooth_arr n_ms N n_x f x a b i n j = 0 <->
     mcp (Fin (a i n j)) (Fin (b i n j)) (x i n j) (f i n j)).
Proof.
  intros n_ms N n_x f x a b i n j Hi Hn Hj Hab. rewrite smooth_arr_value by assumption.
  apply smooth_FB_zero_iff; assumption.
Qed.

Lemma mcp_examples :
  mcp (Fin 0) (Fin 1) 0 3 /\ mcp (Fin 0) (Fin 1) 1 (-3) /\ ~ mcp (Fin 0) (Fin 1) 1 3 /\
  ext_le (lower_cut BIG (Fin 0)) (upper_cut BIG PInf) /\ mcp (Fin 0) PInf 2 0.
Proof.
  unfold mcp, lower_cut, upper_cut, BIG; simpl. destruct (Rle_dec 0 _) as [H|_]; [lra|].
  repeat split; intros; try lra. 
Qed.

Lemma PhiFB__full : forall a b : R,
    (a, b) <> (0, 0) ->
    fst (fst (PhiFB_ a b)) = PhiFB a b /\
    derivable_pt_lim (fun s => PhiFB s b) a (snd (fst (PhiFB_ a b))) /\
    derivable_pt_lim (fun s => PhiFB a s) b (snd (PhiFB_ a b)).
Proof. intros a b H. split; [apply PhiFB__value|apply PhiFB__partials; exact H]. Qed.

Lemma ncp_jac_example : (1, 2) <> (0, 0) /\
  exists d, ncp_smooth_jac JSerial (Fin 0) (Fin 4) 1 1 true 1 = Some d.
Proof.
  split; [intros H; injection H; intros; lra|].
  unfold ncp_smooth_jac, ncp_coefs, ncp_pval, ncp_dp, ncp_dm, ext_leb, ext_geb, BIG.
  destruct (Rle_dec 0 _) as [H|_]; [lra|]. destruct (Rle_dec _ 4) as [H|_]; [lra|].
  destruct (Req_EM_T _ 0) as [E|_].
  - apply sqrt_eq_0 in E; nra.
  - set (p := 1 + sqrt _ + _). destruct (Req_EM_T _ 0) as [E|_]; [|eexists; reflexivity].
    apply sqrt_eq_0 in E; nra.
Qed.

Lemma gauss_solve_1 : forall (J : nat -> nat -> R) v, J 0%nat 0%nat <> 0 ->
    exists dx, gauss_solve 1 J v = Ok dx /\ solves 1 J v dx.
Proof.
  intros J v HJ. pose proof (gauss_solve_correct 1 J v) as G. destruct (gauss_solve 1 J v) as [dx|e].
  - exists dx. split; [reflexivity|apply G].
  - exfalso. destruct G as (z & (i & Hi & Hne) & Hz). apply Hne. specialize (Hz 0%nat ltac:(lia)).
    unfold mat_vec in Hz. simpl in Hz. assert (i = 0%nat) as -> by lia.
    apply Rmult_integral with (r1 := J 0%nat 0%nat) (r2 := z 0%nat) in Hz as Hz' || idtac.
    assert (Hz2 : J 0%nat 0%nat * z 0%nat = 0) by lra. apply Rmult_integral in Hz2 as [|]; [contradiction|assumption].
Qed.
