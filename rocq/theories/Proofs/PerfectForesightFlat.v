(** The flattened system handed to the solvers of perfect foresight. *)
From Coq Require Import String Reals List Arith ZArith Lia Lra.
From Verif.Base Require Import Prelude Ext Sums.
From Verif.Model Require Import Complementarity SteadyState PerfectForesight.
From Verif.Spec Require Import Complementarity PerfectForesight PerfectForesightRun.
From Verif.Proofs Require Import PerfectForesightProofs.
Open Scope R_scope.

Lemma ff_jacobian : forall n_s n_x g f g_s g_x f_s f_x f_S f_X,
    transition_derivatives n_s n_x g g_s g_x ->
    arbitrage_derivatives n_s n_x f f_s f_x f_S f_X ->
    forall N start m v d q, (2 <= N)%nat -> (q < N * (n_s + n_x))%nat ->
      derivable_pt_lim
        (fun h => fst (ff n_s n_x g f g_s g_x f_s f_x f_S f_X N start m (fun r => v r + h * d r)) q) 0
        (rsum (N * (n_s + n_x)) (fun r => snd (ff n_s n_x g f g_s g_x f_s f_x f_S f_X N start m v) q r * d r)).
Proof.
  intros n_s n_x g f g_s g_x f_s f_x f_S f_X Dg Df N start m v d q HN Hq.
  set (n := (n_s + n_x)%nat) in *.
  assert (Hn : (0 < n)%nat) by nia.
  unfold ff, ravel, ravel4. cbn [fst snd].
  assert (Hi : (q / n < N)%nat) by (apply Nat.div_lt_upper_bound; lia).
  assert (Hk : (q mod n < n)%nat) by (apply Nat.mod_upper_bound; lia).
  assert (HR : det_residual n_s n_x g f g_s g_x f_s f_x f_S f_X N N (reshape n_s n_x v) start m =
               Ok (det_res n_s n_x g f N (reshape n_s n_x v) start m,
                   det_jac n_s n_x g_s g_x f_s f_x f_S f_X N (reshape n_s n_x v) m)).
  { unfold det_residual. rewrite Nat.eqb_refl. cbn [negb]. destruct (Nat.ltb_spec N 2); [lia|reflexivity]. }
  pose proof (det_jac_derivative n_s n_x g f g_s g_x f_s f_x f_S f_X Dg Df N N _ start m _ _ HR
                (reshape n_s n_x d) (q / n)%nat (q mod n)%nat Hi Hk) as H.
  fold n in H |- *.
  replace (rsum (N * n) _) with
    (rsum N (fun j => rsum n (fun l => det_jac n_s n_x g_s g_x f_s f_x f_S f_X N (reshape n_s n_x v) m
        (q / n)%nat (q mod n)%nat j l * reshape n_s n_x d j l))); [exact H|].
  rewrite <- rsum_prod. apply rsum_ext. intros r Hr. f_equal. unfold reshape. fold n. f_equal.
  rewrite Nat.mul_comm. symmetry. apply Nat.div_mod. lia.
Qed.
