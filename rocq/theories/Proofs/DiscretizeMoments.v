(** The moments of the chains returned by the method [discretize] of autoregressive processes. *)
From Coq Require Import String Reals List Arith Bool Lia Lra.
From Verif.Base Require Import Prelude Sums Arrays.
From Verif.Spec Require Import Markov Discretize.
From Verif.Model Require Import Discretization Distributions Processes Discretize.
From Verif.Proofs Require Import Multidim ProcessProofs DiscretizeKinds.
Import ListNotations.
Open Scope R_scope.

Section Moments.
  Variable herm : nat -> res ((nat -> R) * (nat -> R)).
  Variables chol_np chol_sp : mat -> res mat.

  Lemma var1_method : forall p to N c, to = ToOmitted \/ to = ToStr "mc" ->
    discretize herm chol_np chol_sp (PVar1 p) to (Kw (option_map NInt N) None None None false) = Ok (OChain c) ->
    var1_discretize_mc chol_sp p (match N with Some n => n | None => 3%nat end) = Ok c.
  Proof.
    intros p to N c Hto H. assert (E : given (ToStr "mc") to = ToStr "mc") by (destruct Hto as [->| ->]; reflexivity).
    cbn [discretize] in H. rewrite E in H. unfold var1_discretize in H.
    destruct N as [n|]; cbn [option_map kw_N to_is String.eqb Ascii.eqb Bool.eqb only_N is_some orb negb] in H;
      apply bind_ok in H; destruct H as (c' & E' & H); injection H as <-; exact E'.
  Qed.
  Lemma ar1_method : forall a b m to N c, to = ToOmitted \/ to = ToStr "mc" ->
    discretize herm chol_np chol_sp (PAr1 a b m) to (Kw (option_map NInt N) None None None false) = Ok (OChain c) ->
    ar1_discretize_mc chol_sp a b m (match N with Some n => n | None => 3%nat end) = Ok c.
  Proof.
    intros a b m to N c Hto H. assert (E : given (ToStr "mc") to = ToStr "mc") by (destruct Hto as [->| ->]; reflexivity).
    cbn [discretize] in H. rewrite E in H. unfold ar1_discretize in H. cbn [to_is String.eqb Ascii.eqb Bool.eqb] in H. unfold var1_discretize in H.
    destruct N as [n|]; cbn [option_map kw_N to_is String.eqb Ascii.eqb Bool.eqb only_N is_some orb negb] in H;
      apply bind_ok in H; destruct H as (c' & E' & H); injection H as <-; exact E'.
  Qed.

  Lemma var1_method_moments : forall r Sigma mu to N c L,
    let n := match N with Some n => n | None => 3%nat end in
    let d := ncol Sigma in
    to = ToOmitted \/ to = ToStr "mc" -> (2 <= n)%nat -> nrow Sigma = d ->
    (forall i j, (i < d)%nat -> (j < d)%nat -> i <> j -> mget Sigma i j = 0) ->
    (forall i, (i < d)%nat -> 0 <= mget Sigma i i) -> (1 <= d)%nat ->
    chol_sp (patch_zero Sigma) = Ok L -> is_cholesky_upper d (patch_zero Sigma) L ->
    discretize herm chol_np chol_sp (PVar1 (make_var1 (RhoScalar r) Sigma (Some mu))) to (Kw (option_map NInt N) None None None false) = Ok (OChain c) ->
    stochastic (n ^ d) (snd c) /\
    forall k, (k < n ^ d)%nat ->
      (forall i, (i < d)%nat -> next_mean (n ^ d) (snd c) k (fun l => mget (fst c) l i) = vget mu i + r * (mget (fst c) k i - vget mu i)) /\
      (forall i j, (i < d)%nat -> (j < d)%nat ->
         let m i := vget mu i + r * (mget (fst c) k i - vget mu i) in
         next_mean (n ^ d) (snd c) k (fun l => (mget (fst c) l i - m i) * (mget (fst c) l j - m j)) = mget Sigma i j).
  Proof.
    intros r Sigma mu to N c L n d Hto Hn Hs Hd Hp H1 HL HC H. apply (var1_method _ _ _ _ Hto) in H.
    exact (var1_discretize_moments chol_sp r Sigma mu n c L Hn Hs Hd Hp H1 HL HC H).
  Qed.
  Lemma ar1_method_moments : forall r sigma mu to N c L,
    let n := match N with Some n => n | None => 3%nat end in
    to = ToOmitted \/ to = ToStr "mc" -> (2 <= n)%nat -> 0 < sigma ->
    chol_sp (patch_zero (Mat 1 1 (fun _ _ => sigma))) = Ok L -> is_cholesky_upper 1 (patch_zero (Mat 1 1 (fun _ _ => sigma))) L ->
    discretize herm chol_np chol_sp (PAr1 r sigma mu) to (Kw (option_map NInt N) None None None false) = Ok (OChain c) ->
    forall k, (k < n)%nat ->
      next_mean n (snd c) k (fun l => mget (fst c) l 0%nat) = mu + r * (mget (fst c) k 0%nat - mu) /\
      next_mean n (snd c) k (fun l => (mget (fst c) l 0%nat - (mu + r * (mget (fst c) k 0%nat - mu))) ^ 2) = sigma.
  Proof.
    intros r sigma mu to N c L n Hto Hn Hs HL HC H. apply (ar1_method _ _ _ _ _ _ Hto) in H.
    exact (ar1_variance chol_sp r sigma mu n c L Hn Hs HL HC H).
  Qed.
End Moments.
