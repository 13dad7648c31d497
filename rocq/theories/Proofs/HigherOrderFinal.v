(** Perturbation of orders one and two: the returned rule. *)
From Coq Require Import String Reals List Arith Lia Lra.
From Verif.Base Require Import Prelude Ext Sums Arrays.
From Verif.Spec Require Import LinearAlgebra Perturbation Tensor HigherOrder.
From Verif.Model Require Import LinearSolve DecisionRule Perturbation.
From Verif.Base Require Import Nda.
From Verif.Model Require Import Tensor MatrixEquations Taylor HigherOrder.
From Verif.Proofs Require Import MatrixAlgebra PerturbationProofs PerturbationFinal TensorProofs MatrixEquationsProofs TaylorProofs
  Jets HigherOrderAlgebra HigherOrderOps HigherOrderProofs.
Import ListNotations.
Open Scope R_scope.

Section First.
  Variable qz : nat -> matR -> matR -> ext -> res (matR * matR * matR * matR).
  Variable solve : nat -> matR -> (nat -> R) -> res (nat -> R).
  Hypothesis HE : exact_solver solve.
  Variables n_s n_x : nat.
  Variables f1 g1 : nda.
  Hypothesis HQZ : schur_routine n_s n_x f1 g1 qz.

  Let fs := fun i j => at_ f1 [i; j].
  Let gs := c_gs g1.
  Let gx := c_gx n_s g1.
  Let fx := c_fx n_s f1.
  Let fS := c_fS n_s n_x f1.
  Let fX := c_fX n_s n_x f1.

  Lemma first_rule_solves : forall c SS TT QQ ZZ X_s, (0 < n_x)%nat ->
      qz (n_s + n_x)%nat (lead n_s fS fX) (lag n_s gs gx fs fx) c = Ok (SS, TT, QQ, ZZ) ->
      first_rule solve n_s n_x SS TT ZZ = Ok X_s ->
      shape X_s = [n_x; n_s] /\ solves_linear_model n_s n_x gs gx fs fx fS fX (coef2 X_s).
  Proof.
    intros c SS TT QQ ZZ X_s Hx Hq H. destruct (HQZ _ _ _ _ _ Hq) as (HG & H1 & H2).
    unfold first_rule in H. destruct (rule_matrix solve n_s n_x ZZ) as [C|e] eqn:EC; cbn [bind] in H; [|discriminate].
    destruct (solve_columns solve n_s (fun i j => SS j i) (fun i j => ZZ j i)) as [Y|e] eqn:EY; cbn [bind] in H; [|discriminate].
    destruct (solve_columns solve n_s (fun i j => ZZ j i) (fun i j => TT j i)) as [Y'|e] eqn:EY'; cbn [bind] in H; [|discriminate].
    apply Ok_inj in H. subst X_s. split; [reflexivity|].
    destruct (rule_matrix_spec solve n_s n_x ZZ C HE Hx EC) as (HC & (V & HV)).
    pose proof (solve_columns_nonsingular _ _ _ _ _ HE EY) as HN.
    assert (HS : ~ singular n_s SS).
    { destruct (inverse_exists n_s _ HN) as (W & HW). apply inverse_transpose in HW.
      apply (inverse_nonsingular n_s SS (transpose W)). exact HW. }
    change (solves_linear_model n_s n_x gs gx fs fx fS fX C).
    exact (solution_equation n_s n_x gs gx fs fx fS fX SS TT QQ ZZ C HG H1 H2 HC V HV HS).
  Qed.

  Lemma first_order_solves : forall X_s, first_order qz solve n_s n_x f1 g1 = Ok X_s ->
      (1 <= n_s)%nat /\ (1 <= n_x)%nat /\ shape X_s = [n_x; n_s] /\ solves_linear_model n_s n_x gs gx fs fx fS fX (coef2 X_s).
  Proof.
    intros X_s H. unfold first_order in H. cbv zeta in H.
    match type of H with bind (qz _ ?a ?b _) _ = _ =>
      change a with (lead n_s fS fX) in H; change b with (lag n_s gs gx fs fx) in H end.
    destruct (qz _ _ _ (Fin (1 - 1 / 10 ^ 8))) as [[[[SS TT] QQ] ZZ]|e] eqn:Eq; [|discriminate]. cbn [bind] in H.
    destruct (pairs_ok (n_s + n_x) SS TT); cbn [negb] in H; [|discriminate].
    destruct (bk_check n_s n_x (eigval SS TT)) as [b|e] eqn:Eb; [|discriminate]. cbn [bind] in H.
    assert (Hs : (1 <= n_s)%nat) by (unfold bk_check in Eb; destruct n_s; [discriminate|lia]).
    destruct b.
    - assert (Hx : (1 <= n_x)%nat).
      { destruct (bk_pass _ _ _ Eb) as (_ & (i & Hi1 & Hi2 & _)). lia. }
      destruct (first_rule_solves _ _ _ _ _ _ Hx Eq H) as (E1 & E2). auto.
    - destruct (nth_error _ (n_s - 1)) as [ev_a|]; [|discriminate].
      destruct (nth_error _ n_s) as [ev_b|] eqn:En; [|discriminate].
      destruct (ext_ltb ev_b ev_a); [|discriminate].
      destruct (qz _ _ _ (half_gap ev_a ev_b)) as [[[[S' T'] Q'] Z']|e] eqn:Eq'; [|discriminate]. cbn [bind] in H.
      assert (Hx : (1 <= n_x)%nat).
      { assert (K : (n_s < length (rev (sorted (map (eigval SS TT) (seq 0 (n_s + n_x))))))%nat) by (apply nth_error_Some; rewrite En; discriminate).
        rewrite rev_length in K.
        assert (LI : forall l a, length (insert a l) = S (length l)).
        { induction l as [|b l IH]; intros a; [reflexivity|]. cbn. destruct (ext_leb a b); cbn; [reflexivity|]. rewrite IH. reflexivity. }
        assert (LS : forall l, length (sorted l) = length l) by (induction l; [reflexivity|]; cbn; rewrite LI; congruence).
        rewrite LS, map_length, seq_length in K. lia. }
      destruct (first_rule_solves _ _ _ _ _ _ Hx Eq' H) as (E1 & E2). auto.
  Qed.
End First.

Lemma dims_recovered : forall n_s n_x : nat, ((n_s + n_x + (n_s + n_x)) / 2 = n_s + n_x)%nat.
Proof. intros. replace (n_s + n_x + (n_s + n_x))%nat with ((n_s + n_x) * 2)%nat by lia. apply Nat.div_mul. lia. Qed.

Section State.
  Variable qz : nat -> matR -> matR -> ext -> res (matR * matR * matR * matR).
  Variable solve : nat -> matR -> (nat -> R) -> res (nat -> R).
  Hypothesis HE : exact_solver solve.

  Theorem order1_solves : forall n_s n_x n_e f0 g0 f1 g1 sigma sol,
      schur_routine n_s n_x f1 g1 qz ->
      shape f1 = [n_x; (n_s + n_x + (n_s + n_x))%nat] -> shape g1 = [n_s; (n_s + n_x + n_e)%nat] ->
      state_perturb qz solve [f0; f1] [g0; g1] sigma = Ok sol ->
      exists X_s, sol = Order1 X_s /\ shape X_s = [n_x; n_s] /\
        solves_linear_model n_s n_x (coef2 g1) (fun i j => coef2 g1 i (n_s + j)%nat)
          (coef2 f1) (fun i j => coef2 f1 i (n_s + j)%nat) (fun i j => coef2 f1 i (n_s + n_x + j)%nat) (fun i j => coef2 f1 i (n_s + n_x + n_s + j)%nat)
          (coef2 X_s).
  Proof.
    intros n_s n_x n_e f0 g0 f1 g1 sigma sol HQZ Hf Hg H. unfold state_perturb in H. cbn [length Nat.eqb negb] in H.
    rewrite Hf, Hg, dims_recovered in H. rewrite (proj2 (Nat.ltb_ge (n_s + n_x) n_x)) in H by lia.
    replace (n_s + n_x - n_x)%nat with n_s in H by lia.
    destruct (first_order qz solve n_s n_x f1 g1) as [X_s|e] eqn:E1; cbn [bind] in H; [|discriminate].
    apply Ok_inj in H. subst sol. exists X_s. split; [reflexivity|].
    destruct (first_order_solves qz solve HE n_s n_x f1 g1 HQZ X_s E1) as (_ & _ & Hs & Hl). split; [exact Hs|exact Hl].
  Qed.

  Theorem order2_accurate : forall n_s n_x n_e (f g : vector -> vector) f0 g0 f1 g1 f2 g2 sigma sol M p eps,
      schur_routine n_s n_x f1 g1 qz ->
      shape f1 = [n_x; (n_s + n_x + (n_s + n_x))%nat] -> shape f2 = [n_x; (n_s + n_x + (n_s + n_x))%nat; (n_s + n_x + (n_s + n_x))%nat] ->
      shape g1 = [n_s; (n_s + n_x + n_e)%nat] -> shape g2 = [n_s; (n_s + n_x + n_e)%nat; (n_s + n_x + n_e)%nat] ->
      shape sigma = [n_e; n_e] ->
      expands2 (n_s + n_x + (n_s + n_x)) n_x f (coef2 f1) (coef3 f2) ->
      expands2 (n_s + n_x + n_e) n_s g (coef2 g1) (coef3 g2) -> symmetric2 n_s (n_s + n_x + n_e) (coef3 g2) ->
      shocks M n_e p eps (coef2 sigma) ->
      state_perturb qz solve [f0; f1; f2] [g0; g1; g2] sigma = Ok sol ->
      exists X_s X_ss X_tt, sol = Order2 X_s X_ss X_tt /\
        shape X_s = [n_x; n_s] /\ shape X_ss = [n_x; n_s; n_s] /\ shape X_tt = [n_x] /\
        accurate 3 n_s n_x M p eps f g (rule2 n_s (coef2 X_s) (coef3 X_ss) (vec_of X_tt)).
  Proof.
    intros n_s n_x n_e f g f0 g0 f1 g1 f2 g2 sigma sol M p eps HQZ Hf1 Hf2 Hg1 Hg2 Hsig Ef Eg Hsym Hsh H.
    unfold state_perturb in H. cbn [length Nat.eqb negb] in H.
    rewrite Hf1, Hg1, dims_recovered in H. rewrite (proj2 (Nat.ltb_ge (n_s + n_x) n_x)) in H by lia.
    replace (n_s + n_x - n_x)%nat with n_s in H by lia.
    destruct (first_order qz solve n_s n_x f1 g1) as [X_s|e] eqn:E1; cbn [bind] in H; [|discriminate].
    destruct (first_order_solves qz solve HE n_s n_x f1 g1 HQZ X_s E1) as (Hns & Hnx & Hs & Hl).
    destruct (second_order solve n_s n_x f1 g1 f2 g2 sigma X_s) as [so|e] eqn:E2; cbn [bind] in H; [|discriminate].
    apply Ok_inj in H. subst sol.
    pose proof (second_order_equations solve HE n_s n_x n_e f1 g1 f2 g2 sigma X_s Hns Hf1 Hg1 Hf2 Hg2 Hsig Hs so E2) as HQ.
    exists X_s, (so_Xss so), (so_Xtt so). split; [reflexivity|]. split; [exact Hs|].
    split; [exact (e_Xss _ _ _ _ _ _ _ _ _ _ HQ)|]. split; [exact (e_Xtt _ _ _ _ _ _ _ _ _ _ HQ)|].
    assert (A1 : (n_s + n_x + (n_s + n_x) = n_s + (n_x + (n_s + n_x)))%nat) by lia.
    assert (A2 : (n_s + n_x + n_e = n_s + (n_x + n_e))%nat) by lia.
    rewrite A1 in Ef. rewrite A2 in Eg.
    refine (second_order_accurate_gen n_s n_x n_e (coef2 f1) (coef2 g1) (coef3 f2) (coef3 g2) (coef2 X_s) (coef3 (so_Xss so)) (vec_of (so_Xtt so))
              M p eps (sh_mass _ _ _ _ _ Hsh) (sh_mean _ _ _ _ _ Hsh) _ _ _ f g Ef Eg _ (rule2_jet n_s (coef2 X_s) (coef3 (so_Xss so)) (vec_of (so_Xtt so)))).
    - exact (chain_condition1 n_s n_x n_e f1 g1 X_s Hns Hl).
    - exact (chain_condition2 n_s n_x n_e f1 g1 f2 g2 sigma X_s Hns Hsym so HQ).
    - exact (chain_condition_risk n_s n_x n_e f1 g1 f2 g2 sigma X_s Hns so HQ M p eps Hsh).
  Qed.

  (** The order three contains the order two. *)
  Lemma order3_order2 : forall f0 f1 f2 f3 g0 g1 g2 g3 sigma X_s X_ss X_sss X_tt X_stt,
      state_perturb qz solve [f0; f1; f2; f3] [g0; g1; g2; g3] sigma = Ok (Order3 X_s X_ss X_sss X_tt X_stt) ->
      state_perturb qz solve [f0; f1; f2] [g0; g1; g2] sigma = Ok (Order2 X_s X_ss X_tt).
  Proof.
    intros f0 f1 f2 f3 g0 g1 g2 g3 sigma X_s X_ss X_sss X_tt X_stt H. unfold state_perturb in *. cbn [length Nat.eqb negb] in *.
    destruct (shape f1) as [|n_x [|c [|]]]; try discriminate. destruct (shape g1) as [|? [|cg [|]]]; try discriminate.
    destruct (Nat.ltb (c / 2) n_x); [discriminate|].
    destruct (first_order _ _ _ _ _ _) as [Y|e]; cbn [bind] in *; [|discriminate].
    destruct (second_order _ _ _ _ _ _ _ _ _) as [so|e]; cbn [bind] in *; [|discriminate].
    destruct (third_states _ _ _ _ _ _ _ _ _ _ _) as [Y3|e]; cbn [bind] in *; [|discriminate].
    destruct (third_risk _ _ _ _ _ _ _ _ _ _ _ _ _ _) as [Yt|e]; cbn [bind] in *; [|discriminate].
    apply Ok_inj in H. injection H as <- <- <- <- <-. reflexivity.
  Qed.

  Theorem order3_accurate2 : forall n_s n_x n_e (f g : vector -> vector) f0 g0 f1 g1 f2 g2 f3 g3 sigma sol M p eps,
      schur_routine n_s n_x f1 g1 qz ->
      shape f1 = [n_x; (n_s + n_x + (n_s + n_x))%nat] -> shape f2 = [n_x; (n_s + n_x + (n_s + n_x))%nat; (n_s + n_x + (n_s + n_x))%nat] ->
      shape g1 = [n_s; (n_s + n_x + n_e)%nat] -> shape g2 = [n_s; (n_s + n_x + n_e)%nat; (n_s + n_x + n_e)%nat] ->
      shape sigma = [n_e; n_e] ->
      expands2 (n_s + n_x + (n_s + n_x)) n_x f (coef2 f1) (coef3 f2) ->
      expands2 (n_s + n_x + n_e) n_s g (coef2 g1) (coef3 g2) -> symmetric2 n_s (n_s + n_x + n_e) (coef3 g2) ->
      shocks M n_e p eps (coef2 sigma) ->
      state_perturb qz solve [f0; f1; f2; f3] [g0; g1; g2; g3] sigma = Ok sol ->
      exists X_s X_ss X_sss X_tt X_stt, sol = Order3 X_s X_ss X_sss X_tt X_stt /\
        state_perturb qz solve [f0; f1; f2] [g0; g1; g2] sigma = Ok (Order2 X_s X_ss X_tt) /\
        accurate 3 n_s n_x M p eps f g (rule3 n_s (coef2 X_s) (coef3 X_ss) (coef4 X_sss) (vec_of X_tt) (coef2 X_stt)).
  Proof.
    intros n_s n_x n_e f g f0 g0 f1 g1 f2 g2 f3 g3 sigma sol M p eps HQZ Hf1 Hf2 Hg1 Hg2 Hsig Ef Eg Hsym Hsh H.
    assert (exists X_s X_ss X_sss X_tt X_stt, sol = Order3 X_s X_ss X_sss X_tt X_stt) as (X_s & X_ss & X_sss & X_tt & X_stt & ->).
    { unfold state_perturb in H. cbn [length Nat.eqb negb] in *.
      destruct (shape f1) as [|? [|c [|]]]; try discriminate. destruct (shape g1) as [|? [|cg [|]]]; try discriminate.
      destruct (Nat.ltb (c / 2) _); [discriminate|].
      destruct (first_order _ _ _ _ _ _) as [Y|e]; cbn [bind] in *; [|discriminate].
      destruct (second_order _ _ _ _ _ _ _ _ _) as [so|e]; cbn [bind] in *; [|discriminate].
      destruct (third_states _ _ _ _ _ _ _ _ _ _ _) as [Y3|e]; cbn [bind] in *; [|discriminate].
      destruct (third_risk _ _ _ _ _ _ _ _ _ _ _ _ _ _) as [Yt|e]; cbn [bind] in *; [|discriminate].
      apply Ok_inj in H. subst sol. repeat eexists. }
    exists X_s, X_ss, X_sss, X_tt, X_stt. split; [reflexivity|]. pose proof (order3_order2 _ _ _ _ _ _ _ _ _ _ _ _ _ _ H) as H'.
    split; [exact H'|]. clear H.
    unfold state_perturb in H'. cbn [length Nat.eqb negb] in H'.
    rewrite Hf1, Hg1, dims_recovered in H'. rewrite (proj2 (Nat.ltb_ge (n_s + n_x) n_x)) in H' by lia.
    replace (n_s + n_x - n_x)%nat with n_s in H' by lia.
    destruct (first_order qz solve n_s n_x f1 g1) as [Y|e] eqn:E1; cbn [bind] in H'; [|discriminate].
    destruct (first_order_solves qz solve HE n_s n_x f1 g1 HQZ Y E1) as (Hns & Hnx & Hs & Hl).
    destruct (second_order solve n_s n_x f1 g1 f2 g2 sigma Y) as [so|e] eqn:E2; cbn [bind] in H'; [|discriminate].
    apply Ok_inj in H'. injection H' as -> <- <-.
    pose proof (second_order_equations solve HE n_s n_x n_e f1 g1 f2 g2 sigma X_s Hns Hf1 Hg1 Hf2 Hg2 Hsig Hs so E2) as HQ.
    assert (A1 : (n_s + n_x + (n_s + n_x) = n_s + (n_x + (n_s + n_x)))%nat) by lia.
    assert (A2 : (n_s + n_x + n_e = n_s + (n_x + n_e))%nat) by lia.
    rewrite A1 in Ef. rewrite A2 in Eg.
    refine (second_order_accurate_gen n_s n_x n_e (coef2 f1) (coef2 g1) (coef3 f2) (coef3 g2) (coef2 X_s) (coef3 (so_Xss so)) (vec_of (so_Xtt so))
              M p eps (sh_mass _ _ _ _ _ Hsh) (sh_mean _ _ _ _ _ Hsh) _ _ _ f g Ef Eg _
              (rule3_jet n_s (coef2 X_s) (coef3 (so_Xss so)) (vec_of (so_Xtt so)) (coef4 X_sss) (coef2 X_stt))).
    - exact (chain_condition1 n_s n_x n_e f1 g1 X_s Hns Hl).
    - exact (chain_condition2 n_s n_x n_e f1 g1 f2 g2 sigma X_s Hns Hsym so HQ).
    - exact (chain_condition_risk n_s n_x n_e f1 g1 f2 g2 sigma X_s Hns so HQ M p eps Hsh).
  Qed.
End State.

(** The decision rule built from the solution. *)
Theorem order2_rule : forall s x X_s X_ss X_tt t,
    shape X_s = [length x; length s] -> shape X_ss = [length x; length s; length s] -> shape X_tt = [length x] ->
    perturb_rule s x (Order2 X_s X_ss X_tt) = Ok t ->
    forall q, length q = length s -> exists out, te_eval1 t q = Ok out /\ length out = length x /\
      forall n, (n < length x)%nat ->
        nth n out 0 = nth n x 0 + rule2 (length s) (coef2 X_s) (coef3 X_ss) (vec_of X_tt) (fun i => nth i q 0 - nth i s 0) 1 n.
Proof.
  intros s x X_s X_ss X_tt t Hs Hss Htt H q Hq. unfold perturb_rule in H. apply Ok_inj in H. subst t.
  set (sh := map (fun i => nth i x 0 + at_ X_tt [i] / 2) (seq 0 (length x))).
  assert (Ls : length sh = length x) by (unfold sh; rewrite map_length, seq_length; reflexivity).
  destruct (te_value (TE s sh [X_s; X_ss]) q) as (out & E & Lo & Hv).
  - split; [cbn; lia|]. cbn. rewrite Ls. auto.
  - exact Hq.
  - cbn [te_x te_s te_coefs] in *. exists out. split; [exact E|]. split; [congruence|]. intros n Hn.
    rewrite Hv by (rewrite Ls; exact Hn). unfold taylor, rule2, poly2, order1, order2, order3, lin, bil, coef2, coef3, vec_of.
    unfold sh. rewrite (nth_map_seq0 (fun i => nth i x 0 + at_ X_tt [i] / 2) (length x) n 0 Hn).
    rewrite (rsum_0 (length s) (fun i => rsum (length s) (fun j => rsum (length s) (fun k => 0 * _ * _ * _)))).
    + field.
    + intros i _. apply rsum_0. intros j _. apply rsum_0. intros k _. ring.
Qed.

(** ** Return *)

Section Return.
  Variable solve : nat -> matR -> (nat -> R) -> res (nat -> R).
  Variables n_s n_x n_e : nat.
  Variables f1 g1 f2 g2 sigma X_s : nda.
  Let nv := (n_s + n_x)%nat.
  Let N := (nv + nv)%nat.
  Let G := (nv + n_e)%nat.
  Hypothesis Hf1 : shape f1 = [n_x; N].
  Hypothesis Hg1 : shape g1 = [n_s; G].
  Hypothesis Hf2 : shape f2 = [n_x; N; N].
  Hypothesis Hg2 : shape g2 = [n_s; G; G].
  Hypothesis Hsig : shape sigma = [n_e; n_e].
  Hypothesis HX : shape X_s = [n_x; n_s].
  (** The two linear systems can be solved. *)
  Hypothesis Hsyl : forall A B C D,
      is2 A n_x n_x (c_A n_s n_x f1 g1 X_s) -> is2 B n_x n_x (c_fX n_s n_x f1) -> is2 C n_s n_s (c_P n_s n_x g1 X_s) ->
      is3 D n_x n_s n_s (c_D n_s n_x f1 g1 f2 g2 X_s) ->
      exists X, solve_sylvester solve (to_mat A) (to_mat B) (to_mat C) D = Ok X /\ shape X = [n_x; n_s; n_s].
  Hypothesis Hlin : forall L b, is2 L n_x n_x (c_Lt n_s n_x f1 g1 X_s) -> exists x, solve n_x (mget (to_mat L)) b = Ok x.

  Tactic Notation "stg" constr(lem) ident(T) ident(HT) := let E := fresh "E" in destruct lem as (T & E & HT); rewrite E; cbn [bind]; clear E.

  Lemma second_order_returns : exists so, second_order solve n_s n_x f1 g1 f2 g2 sigma X_s = Ok so.
  Proof.
    unfold second_order. cbv zeta. fold nv.
    pose proof (is2_self _ _ _ Hf1) as F1. pose proof (is2_self _ _ _ Hg1) as G1.
    pose proof (is3_self _ _ _ _ Hf2) as F2. pose proof (is3_self _ _ _ _ Hg2) as G2.
    pose proof (is2_self _ _ _ Hsig) as SG. pose proof (is2_self _ _ _ HX) as XS.
    stg (slice2 f1 _ _ _ all_ (from_to n_s nv) 0%nat n_s n_x n_x F1 ltac:(rd) ltac:(unfold nv, N in *; rd)) f_x Hfx.
    stg (slice2 f1 _ _ _ all_ (from_to nv (nv + n_s)) 0%nat nv n_x n_s F1 ltac:(rd) ltac:(unfold nv, N in *; rd)) f_snext HfS.
    stg (slice2 f1 _ _ _ all_ (from_ (nv + n_s)) 0%nat (nv + n_s)%nat n_x n_x F1 ltac:(rd) ltac:(unfold N, nv in *; rd)) f_xnext HfX.
    change (is2 f_xnext n_x n_x (c_fX n_s n_x f1)) in HfX.
    stg (slice2 g1 _ _ _ all_ (to_ n_s) 0%nat 0%nat n_s n_s G1 ltac:(rd) ltac:(unfold G, nv in *; rd)) g_s Hgs.
    stg (slice2 g1 _ _ _ all_ (from_to n_s nv) 0%nat n_s n_s n_x G1 ltac:(rd) ltac:(unfold G, nv in *; rd)) g_x Hgx.
    stg (slice2 g1 _ _ _ all_ (from_ nv) 0%nat nv n_s n_e G1 ltac:(rd) ltac:(unfold G, nv in *; rd)) g_e Hge.
    stg (slice3 g2 _ _ _ _ all_ (to_ n_s) (to_ n_s) 0%nat 0%nat 0%nat n_s n_s n_s G2 ltac:(rd) ltac:(unfold G, nv in *; rd) ltac:(unfold G, nv in *; rd)) g_ss Hgss.
    stg (slice3 g2 _ _ _ _ all_ (to_ n_s) (from_to n_s nv) 0%nat 0%nat n_s n_s n_s n_x G2 ltac:(rd) ltac:(unfold G, nv in *; rd) ltac:(unfold G, nv in *; rd)) g_sx Hgsx.
    stg (slice3 g2 _ _ _ _ all_ (from_to n_s nv) (from_to n_s nv) 0%nat n_s n_s n_s n_x n_x G2 ltac:(rd) ltac:(unfold G, nv in *; rd) ltac:(unfold G, nv in *; rd)) g_xx Hgxx.
    stg (dot22 _ _ _ _ _ _ _ Hgx XS) gxX HgxX.
    stg (add2 _ _ _ _ _ _ Hgs HgxX) V1_3 HP. change (is2 V1_3 n_s n_s (c_P n_s n_x g1 X_s)) in HP.
    stg (dot22 _ _ _ _ _ _ _ XS HP) XV HXV.
    destruct (stack2 V1_3 [XV] XV _ _ _ _ _ ltac:(discriminate) eq_refl HP HXV) as (st1 & E1 & H1).
    destruct (stack2 X_s [V1_3; XV] _ _ _ _ _ _ ltac:(discriminate) E1 XS H1) as (st2 & E2 & H2).
    destruct (stack2 (nd_eye n_s) [X_s; V1_3; XV] _ _ _ _ _ _ ltac:(discriminate) E2 (eye2 n_s) H2) as (V1 & E3 & HV1).
    rewrite E3. cbn [bind]. clear E1 E2 E3 H1 H2.
    assert (HN : (n_s + (n_x + (n_s + n_x)))%nat = N) by (unfold N, nv; lia). rewrite HN in HV1.
    stg (sdot32 _ _ _ _ _ _ _ _ Hgsx XS) gsxX HgsxX.
    stg (mdot322 _ _ _ _ _ _ _ _ _ _ _ Hgxx XS XS) gxxXX HgxxXX.
    stg (add3 _ _ _ _ _ _ _ Hgss (scale3 2 _ _ _ _ _ HgsxX)) K2a HK2a.
    stg (add3 _ _ _ _ _ _ _ HK2a HgxxXX) K2 HK2.
    stg (dot22 _ _ _ _ _ _ _ HfX XS) fXX HfXX.
    stg (add2 _ _ _ _ _ _ HfS HfXX) L HL.
    stg (dot22 _ _ _ _ _ _ _ HL Hgx) Lgx HLgx.
    stg (add2 _ _ _ _ _ _ Hfx HLgx) A HA.
    stg (mdot322 _ _ _ _ _ _ _ _ _ _ _ F2 HV1 HV1) f2VV Hf2VV.
    stg (sdot23 _ _ _ _ _ _ _ _ HL HK2) LK2 HLK2.
    stg (add3 _ _ _ _ _ _ _ Hf2VV HLK2) D HD.
    destruct (Hsyl A f_xnext V1_3 D HA HfX HP HD) as (X_ss & ES & HXss). rewrite ES. cbn [bind]. apply is3_self in HXss.
    stg (slice3 g2 _ _ _ _ all_ (from_ nv) (from_ nv) 0%nat nv nv n_s n_e n_e G2 ltac:(rd) ltac:(unfold G, nv in *; rd) ltac:(unfold G, nv in *; rd)) g_ee Hgee.
    stg (dot22 _ _ _ _ _ _ _ XS Hge) Xge HXge.
    destruct (stack2 g_e [Xge] Xge _ _ _ _ _ ltac:(discriminate) eq_refl Hge HXge) as (v & Ev & Hv). rewrite Ev. cbn [bind]. clear Ev. fold nv in Hv.
    stg (slice3 f2 _ _ _ _ all_ (from_ nv) (from_ nv) 0%nat nv nv n_x nv nv F2 ltac:(rd) ltac:(unfold N in *; rd) ltac:(unfold N in *; rd)) f2nn Hf2nn.
    stg (mdot322 _ _ _ _ _ _ _ _ _ _ _ Hf2nn Hv Hv) K1 HK1.
    stg (sdot23 _ _ _ _ _ _ _ _ HL Hgee) Lgee HLgee.
    stg (add3 _ _ _ _ _ _ _ HK1 HLgee) K2t HK2t.
    stg (sdot23 _ _ _ _ _ _ _ _ HfX HXss) fXXss HfXXss.
    stg (mdot322 _ _ _ _ _ _ _ _ _ _ _ HfXXss Hge Hge) fXgg HfXgg.
    stg (add3 _ _ _ _ _ _ _ HK2t HfXgg) K3t HK3t.
    stg (against3 _ _ _ _ _ _ HK3t SG) K_tt HK_tt.
    stg (dot22 _ _ _ _ _ _ _ HfS Hgx) fSgx HfSgx.
    stg (dot22 _ _ _ _ _ _ _ XS Hgx) Xgx HXgx.
    stg (add2 _ _ _ _ _ _ HXgx (eye2 n_x)) XgxI HXgxI.
    stg (dot22 _ _ _ _ _ _ _ HfX HXgxI) fXr HfXr.
    stg (add2 _ _ _ _ _ _ Hfx HfSgx) L1 HL1.
    stg (add2 _ _ _ _ _ _ HL1 HfXr) L_tt HLtt.
    unfold np_solve. destruct (to_mat_dims _ _ _ _ HLtt) as (Er & Ec). rewrite Er, Ec, (proj1 HK_tt). cbn [nth]. rewrite !Nat.eqb_refl. cbn [negb].
    destruct (Hlin L_tt (fun i => - at_ K_tt [i]) HLtt) as (x & ->). cbn [bind]. eexists. reflexivity.
  Qed.
End Return.

(** ** Example: s' = s/2 + s^2/2 + eps, 4 x - x' + s'^2 = 0. *)

Definition ex_f1 : nda := Nda [1; 4]%nat (fun idx => match idx with [_; 1%nat] => 4 | [_; 3%nat] => -1 | _ => 0 end).
Definition ex_f2 : nda := Nda [1; 4; 4]%nat (fun idx => match idx with [_; 2%nat; 2%nat] => 2 | _ => 0 end).
Definition ex_g1 : nda := Nda [1; 3]%nat (fun idx => match idx with [_; 0%nat] => 1/2 | [_; 2%nat] => 1 | _ => 0 end).
Definition ex_g2 : nda := Nda [1; 3; 3]%nat (fun idx => match idx with [_; 0%nat; 0%nat] => 1 | _ => 0 end).
Definition ex_sigma : nda := Nda [1; 1]%nat (fun _ => 1).
Definition ex_qz : nat -> matR -> matR -> ext -> res (matR * matR * matR * matR) := fun _ _ _ _ => Ok (eye, ex_diag2 (1/2) 4, eye, eye).
Definition ex_f : vector -> vector := fun u _ => 4 * u 1%nat - u 3%nat + u 2%nat ^ 2.
Definition ex_g : vector -> vector := fun u _ => u 0%nat / 2 + u 0%nat ^ 2 / 2 + u 2%nat.

Lemma one_nonsingular : forall A, A 0%nat 0%nat <> 0 -> ~ singular 1 A.
Proof.
  intros A HA (z & (i & Hi & Hne) & Hz). assert (i = 0%nat) by lia. subst i. specialize (Hz 0%nat ltac:(lia)). cbn in Hz.
  apply Hne. destruct (Rmult_integral (A 0%nat 0%nat) (z 0%nat)); [lra|contradiction|assumption].
Qed.
Lemma gauss_one : forall A b, A 0%nat 0%nat <> 0 -> exists x, gauss_solve 1 A b = Ok x.
Proof.
  intros A b HA. pose proof (GaussFinal.gauss_solve_correct 1 A b) as K. destruct (gauss_solve 1 A b) as [x|e]; [eexists; reflexivity|].
  exfalso. exact (one_nonsingular A HA K).
Qed.
Lemma columns_one : forall A B, A 0%nat 0%nat <> 0 -> exists X, solve_columns gauss_solve 1 A B = Ok X.
Proof.
  intros A B HA. unfold solve_columns. cbn [for_range_res bind]. destruct (gauss_one A (fun i => B i 0%nat) HA) as (x & E). rewrite E. eexists. reflexivity.
Qed.

Lemma ex_schur : schur_routine 1 1 ex_f1 ex_g1 ex_qz.
Proof.
  intros c S T Q Z H. unfold ex_qz in H. apply Ok_inj in H. injection H as <- <- <- <-. split; [|split].
  - split; [| |apply eye_orthogonal|apply eye_orthogonal]; intros i j Hi Hj; change (1 + 1)%nat with 2%nat in Hi, Hj; repeat small;
      cbv -[Rplus Rmult Ropp Rinv IZR Rminus Rdiv]; lra.
  - intros i j Hp Hi Hj. unfold eye. destruct (Nat.eqb_spec i j); [lia|reflexivity].
  - intros i j Hp Hi Hj. assert (i = 1 /\ j = 0)%nat as (-> & ->) by lia. reflexivity.
Qed.

Lemma ex_first : exists X_s, first_order ex_qz gauss_solve 1 1 ex_f1 ex_g1 = Ok X_s /\ shape X_s = [1; 1]%nat.
Proof.
  unfold first_order, ex_qz. cbv zeta. cbn [bind].
  rewrite pairs_ok_ones by (intros i _; unfold eye; rewrite Nat.eqb_refl; reflexivity). cbn [negb].
  assert (Eb : bk_check 1 1 (eigval eye (ex_diag2 (1/2) 4)) = Ok true).
  { unfold bk_check. cbn [Nat.eqb seq].
    rewrite (proj2 (existsb_exists _ _ : some_above _ _ = true <-> _)).
    + f_equal. apply existsb_exists. exists 1%nat. split; [cbn; auto|].
      rewrite (eigval_fin _ _ _ (1/4)); [| |].
      * unfold ext_ltb. cbn. destruct (Rle_dec 1 (1 / 4)); [lra|reflexivity].
      * cbn. lra.
      * cbn. unfold eye. cbn. rewrite Rabs_pos_eq; lra.
    + exists 0%nat. split; [cbn; auto|]. rewrite (eigval_fin _ _ _ 2).
      * cbn. destruct (Rle_dec 1 2); [reflexivity|lra].
      * cbn. lra.
      * cbn. unfold eye. cbn. rewrite Rabs_pos_eq; lra. }
  rewrite Eb. cbn [bind]. unfold first_rule.
  destruct (rule_matrix_total 1 1 eye (eye_nonsingular 1)) as (C & EC). rewrite EC. cbn [bind].
  destruct (columns_one (fun i j => eye j i) (fun i j => eye j i)) as (X & EX); [unfold eye; cbn; lra|]. rewrite EX. cbn [bind].
  destruct (columns_one (fun i j => eye j i) (fun i j => ex_diag2 (1/2) 4 j i)) as (Y & EY); [unfold eye; cbn; lra|]. rewrite EY. cbn [bind].
  eexists. split; reflexivity.
Qed.

Lemma ex_sylvester : forall A B C D FA FB FC FD, is2 A 1 1 FA -> is2 B 1 1 FB -> is2 C 1 1 FC -> is3 D 1 1 1 FD ->
    FA 0%nat 0%nat + FB 0%nat 0%nat * FC 0%nat 0%nat ^ 2 <> 0 ->
    exists X, solve_sylvester gauss_solve (to_mat A) (to_mat B) (to_mat C) D = Ok X /\ shape X = [1; 1; 1]%nat.
Proof.
  intros A B C D FA FB FC FD HA HB HC HD Hne.
  destruct (sylvester_returns (to_mat A) (to_mat B) (to_mat C) D 1 1 2 (to_mat_dims _ _ _ _ HA) (to_mat_dims _ _ _ _ HB) (to_mat_dims _ _ _ _ HC)
              (proj1 HD) ltac:(lia) ltac:(lia)) as (X & EX).
  - apply one_nonsingular. unfold sylvester_matrix, kron_power. destruct (to_mat_dims _ _ _ _ HC) as (Cr & Cc).
    cbn -[to_mat]. rewrite Cr, Cc. change (0 mod 1)%nat with 0%nat. change (0 / 1)%nat with 0%nat. change (0 mod 1)%nat with 0%nat. rewrite !to_mat_get, (proj2 HA), (proj2 HB), !(proj2 HC) by lia.
    unfold eye. cbn. intros K. apply Hne. rewrite <- K. ring.
  - exists X. split; [exact EX|].
    destruct (sylvester3 _ _ _ _ _ _ _ _ _ _ _ _ gauss_exact (le_n 1) HA HB HC HD EX) as ((Hs & _) & _). exact Hs.
Qed.

Lemma ex_order2 : exists sol, state_perturb ex_qz gauss_solve [ex_sigma; ex_f1; ex_f2] [ex_sigma; ex_g1; ex_g2] ex_sigma = Ok sol.
Proof.
  unfold state_perturb. cbn [length Nat.eqb negb shape ex_f1 ex_g1]. change (4 / 2)%nat with 2%nat. cbn [Nat.ltb Nat.leb Nat.sub].
  destruct ex_first as (X_s & E1 & Hs). fold ex_f1 ex_g1. rewrite E1. cbn [bind].
  destruct (first_order_solves ex_qz gauss_solve gauss_exact 1 1 ex_f1 ex_g1 ex_schur X_s E1) as (_ & _ & _ & Hl).
  specialize (Hl 0%nat 0%nat ltac:(lia) ltac:(lia)).
  destruct (second_order_returns gauss_solve 1 1 1 ex_f1 ex_g1 ex_f2 ex_g2 ex_sigma X_s eq_refl eq_refl eq_refl eq_refl eq_refl Hs) as (so & Eso).
  - intros A B C D HA HB HC HD. apply (ex_sylvester _ _ _ _ _ _ _ _ HA HB HC HD).
    cbv -[Rplus Rmult Ropp Rinv IZR Rminus Rdiv at_ pow]. cbn -[Rdiv]. lra.
  - intros L b HL. apply gauss_one. rewrite to_mat_get, (proj2 HL) by lia.
    cbv -[Rplus Rmult Ropp Rinv IZR Rminus Rdiv at_ pow]. cbn. lra.
  - rewrite Eso. cbn [bind]. eexists. reflexivity.
Qed.

Lemma ex_f_expands : expands2 4 1 ex_f (coef2 ex_f1) (coef3 ex_f2).
Proof.
  exists 0, 1. split; [lra|]. intros u _ i Hi. rewrite Rmult_0_l. right.
  match goal with |- Rabs ?e = 0 => replace e with 0; [apply Rabs_R0|] end.
  unfold poly2, lin, bil, ex_f, coef2, coef3. cbn. field.
Qed.
Lemma ex_g_expands : expands2 3 1 ex_g (coef2 ex_g1) (coef3 ex_g2).
Proof.
  exists 0, 1. split; [lra|]. intros u _ i Hi. rewrite Rmult_0_l. right.
  match goal with |- Rabs ?e = 0 => replace e with 0; [apply Rabs_R0|] end.
  unfold poly2, lin, bil, ex_g, coef2, coef3. cbn. field.
Qed.
Lemma ex_g_symmetric : symmetric2 1 3 (coef3 ex_g2).
Proof. intros i j k _ Hj Hk. destruct j as [|[|[|j]]]; try lia; destruct k as [|[|[|k]]]; try lia; reflexivity. Qed.
Lemma ex_shocks : shocks 2 1 (fun _ => 1/2) (fun k _ => if Nat.eqb k 0 then 1 else -1) (coef2 ex_sigma).
Proof. constructor; cbn; intros; unfold coef2; cbn; lra. Qed.
