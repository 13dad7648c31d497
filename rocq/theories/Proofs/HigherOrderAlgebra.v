(** Second-order conditions make the residuals of order three. *)
From Coq Require Import Reals List Arith Lia Lra.
From Verif.Base Require Import Prelude Sums.
From Verif.Spec Require Import LinearAlgebra HigherOrder.
From Verif.Proofs Require Import Jets.
Open Scope R_scope.

Definition zero : vector := fun _ => 0.

Lemma lin_ext : forall n A B u v i, (forall j, (j < n)%nat -> A i j = B i j) -> (forall j, (j < n)%nat -> u j = v j) -> lin n A u i = lin n B v i.
Proof. intros n A B u v i HA H. apply rsum_ext. intros j Hj. rewrite HA, H by exact Hj. reflexivity. Qed.
Lemma lin_ext_v : forall n A u v i, (forall j, (j < n)%nat -> u j = v j) -> lin n A u i = lin n A v i.
Proof. intros. apply lin_ext; auto. Qed.
Lemma lin_plus : forall n A u v i, lin n A (fun j => u j + v j) i = lin n A u i + lin n A v i.
Proof. intros. unfold lin. rewrite <- rsum_plus. apply rsum_ext. intros. ring. Qed.
Lemma lin_scal : forall n A c u i, lin n A (fun j => c * u j) i = c * lin n A u i.
Proof. intros. unfold lin. rewrite <- rsum_scal. apply rsum_ext. intros. ring. Qed.
Lemma lin_zero : forall n A u i, (forall j, (j < n)%nat -> u j = 0) -> lin n A u i = 0.
Proof. intros n A u i H. apply rsum_0. intros j Hj. rewrite H by exact Hj. ring. Qed.
Lemma bil_ext : forall n m A B u v u' v' i, (forall j k, (j < n)%nat -> (k < m)%nat -> A i j k = B i j k) ->
    (forall j, (j < n)%nat -> u j = u' j) -> (forall j, (j < m)%nat -> v j = v' j) -> bil n m A u v i = bil n m B u' v' i.
Proof.
  intros n m A B u v u' v' i HA Hu Hv. apply rsum_ext. intros j Hj. apply rsum_ext. intros k Hk.
  rewrite HA, Hu, Hv by assumption. reflexivity.
Qed.
Lemma bil_ext_v : forall n m A u v u' v' i, (forall j, (j < n)%nat -> u j = u' j) -> (forall j, (j < m)%nat -> v j = v' j) ->
    bil n m A u v i = bil n m A u' v' i.
Proof. intros. apply bil_ext; auto. Qed.
Lemma bil_plus_l : forall n m A u u' v i, bil n m A (fun j => u j + u' j) v i = bil n m A u v i + bil n m A u' v i.
Proof. intros. unfold bil. rewrite <- rsum_plus. apply rsum_ext. intros. rewrite <- rsum_plus. apply rsum_ext. intros. ring. Qed.
Lemma bil_plus_r : forall n m A u v v' i, bil n m A u (fun j => v j + v' j) i = bil n m A u v i + bil n m A u v' i.
Proof. intros. unfold bil. rewrite <- rsum_plus. apply rsum_ext. intros. rewrite <- rsum_plus. apply rsum_ext. intros. ring. Qed.
Lemma bil_scal_l : forall n m A c u v i, bil n m A (fun j => c * u j) v i = c * bil n m A u v i.
Proof. intros. unfold bil. rewrite <- rsum_scal. apply rsum_ext. intros. rewrite <- rsum_scal. apply rsum_ext. intros. ring. Qed.
Lemma bil_scal_r : forall n m A c u v i, bil n m A u (fun j => c * v j) i = c * bil n m A u v i.
Proof. intros. unfold bil. rewrite <- rsum_scal. apply rsum_ext. intros. rewrite <- rsum_scal. apply rsum_ext. intros. ring. Qed.
Lemma bil_swap : forall n A u v i, (forall j k, (j < n)%nat -> (k < n)%nat -> A i j k = A i k j) -> bil n n A u v i = bil n n A v u i.
Proof.
  intros n A u v i H. unfold bil. rewrite rsum_swap. apply rsum_ext. intros j Hj. apply rsum_ext. intros k Hk.
  rewrite (H k j) by assumption. ring.
Qed.

Lemma glue_lt : forall n u v j, (j < n)%nat -> glue n u v j = u j.
Proof. intros n u v j H. unfold glue. rewrite (proj2 (Nat.ltb_lt j n) H). reflexivity. Qed.
Lemma glue_ge : forall n u v (j : nat), glue n u v (n + j)%nat = v j.
Proof. intros n u v j. unfold glue. rewrite (proj2 (Nat.ltb_ge (n + j) n)) by lia. f_equal. lia. Qed.
Lemma glue_ext : forall (n m : nat) u v u' v' j, (forall k, (k < n)%nat -> u k = u' k) -> (forall k, (k < m)%nat -> v k = v' k) -> (j < n + m)%nat ->
    glue n u v j = glue n u' v' j.
Proof.
  intros n m u v u' v' j Hu Hv Hj. unfold glue. destruct (Nat.ltb_spec j n); [apply Hu; lia|apply Hv; lia].
Qed.
Lemma glue_plus : forall n u v u' v' j, glue n (fun k => u k + u' k) (fun k => v k + v' k) j = glue n u v j + glue n u' v' j.
Proof. intros. unfold glue. destruct (Nat.ltb j n); reflexivity. Qed.
Lemma glue_scal : forall n c u v j, glue n (fun k => c * u k) (fun k => c * v k) j = c * glue n u v j.
Proof. intros. unfold glue. destruct (Nat.ltb j n); reflexivity. Qed.
Lemma lin_glue : forall (n m : nat) A u v i, lin (n + m) A (glue n u v) i = lin n A u i + lin m (fun i j => A i (n + j)%nat) v i.
Proof.
  intros n m A u v i. unfold lin. rewrite rsum_split. f_equal; apply rsum_ext; intros j Hj.
  - rewrite glue_lt by exact Hj. reflexivity.
  - rewrite glue_ge. reflexivity.
Qed.
Lemma jet_glue : forall q n m (u v : R -> vector) a b c a' b' c',
    (forall j, (j < n)%nat -> jet q (fun t => u t j) (a j) (b j) (c j)) ->
    (forall j, (j < m)%nat -> jet q (fun t => v t j) (a' j) (b' j) (c' j)) ->
    forall j, (j < n + m)%nat -> jet q (fun t => glue n (u t) (v t) j) (glue n a a' j) (glue n b b' j) (glue n c c' j).
Proof.
  intros q n m u v a b c a' b' c' H H' j Hj. unfold glue. destruct (Nat.ltb_spec j n); [apply H; lia|apply H'; lia].
Qed.

(** Means. *)
Section Mean.
  Variables (M : nat) (p : vector).
  Definition mean (u : nat -> vector) : vector := fun j => rsum M (fun k => p k * u k j).

  Lemma mean_lin : forall n A u i, mean (fun k => lin n A (u k)) i = lin n A (mean u) i.
  Proof.
    intros n A u i. unfold mean, lin.
    rewrite (rsum_ext M _ (fun k => rsum n (fun j => A i j * (p k * u k j)))) by (intros; rewrite <- rsum_scal; apply rsum_ext; intros; ring).
    rewrite rsum_swap. apply rsum_ext. intros j Hj. apply rsum_scal.
  Qed.
  Lemma mean_plus : forall u v j, mean (fun k j => u k j + v k j) j = mean u j + mean v j.
  Proof. intros. unfold mean. rewrite <- rsum_plus. apply rsum_ext. intros. ring. Qed.
  Lemma mean_scal : forall c u j, mean (fun k j => c * u k j) j = c * mean u j.
  Proof. intros. unfold mean. rewrite <- rsum_scal. apply rsum_ext. intros. ring. Qed.
  Lemma mean_ext : forall u v j, (forall k, (k < M)%nat -> u k j = v k j) -> mean u j = mean v j.
  Proof. intros u v j H. apply rsum_ext. intros k Hk. rewrite H by exact Hk. reflexivity. Qed.
  Lemma mean_glue : forall n u v j, mean (fun k => glue n (u k) (v k)) j = glue n (mean u) (mean v) j.
  Proof. intros n u v j. unfold glue, mean. destruct (Nat.ltb j n); reflexivity. Qed.
  Hypothesis Hp : rsum M p = 1.
  Lemma mean_const : forall u j, mean (fun _ => u) j = u j.
  Proof. intros u j. unfold mean. rewrite rsum_scal_r, Hp. ring. Qed.
  Lemma mean_bil_l : forall n m A u v i, mean (fun k => bil n m A (u k) v) i = bil n m A (mean u) v i.
  Proof.
    intros n m A u v i. unfold bil.
    transitivity (mean (fun k => lin n (fun i j => rsum m (fun l => A i j l * v l)) (u k)) i).
    - apply mean_ext. intros k _. unfold lin. apply rsum_ext. intros j _. rewrite <- rsum_scal_r. apply rsum_ext. intros. ring.
    - rewrite mean_lin. unfold lin. apply rsum_ext. intros j _. rewrite <- rsum_scal_r. apply rsum_ext. intros. ring.
  Qed.
  Lemma mean_bil_r : forall n m A u v i, mean (fun k => bil n m A u (v k)) i = bil n m A u (mean v) i.
  Proof.
    intros n m A u v i. unfold bil.
    transitivity (mean (fun k => lin m (fun i l => rsum n (fun j => A i j l * u j)) (v k)) i).
    - apply mean_ext. intros k _. unfold lin. rewrite rsum_swap. apply rsum_ext. intros j _. rewrite <- rsum_scal_r. apply rsum_ext. intros. ring.
    - rewrite mean_lin. unfold lin. rewrite rsum_swap. apply rsum_ext. intros j _. rewrite <- rsum_scal_r. apply rsum_ext. intros. ring.
  Qed.
  (** Mean of a quadratic map at a + mu b_k when the b_k have mean zero. *)
  Lemma mean_quadratic : forall n A a mu b i, (forall j, (j < n)%nat -> mean b j = 0) ->
      mean (fun k => bil n n A (fun j => a j + mu * b k j) (fun j => a j + mu * b k j)) i
      = bil n n A a a i + mu ^ 2 * mean (fun k => bil n n A (b k) (b k)) i.
  Proof.
    intros n A a mu b i Hb.
    transitivity (mean (fun k i => bil n n A a a i + (mu * bil n n A (b k) a i + (mu * bil n n A a (b k) i + mu ^ 2 * bil n n A (b k) (b k) i))) i).
    - apply mean_ext. intros k _. rewrite bil_plus_l, !bil_plus_r, !bil_scal_l, !bil_scal_r. ring.
    - rewrite (mean_plus (fun _ => bil n n A a a)), mean_const.
      rewrite (mean_plus (fun k i => mu * bil n n A (b k) a i)), (mean_scal mu (fun k => bil n n A (b k) a)), mean_bil_l.
      rewrite (mean_plus (fun k i => mu * bil n n A a (b k) i)), (mean_scal mu (fun k => bil n n A a (b k))), mean_bil_r.
      rewrite (mean_scal (mu ^ 2) (fun k => bil n n A (b k) (b k))).
      assert (E1 : bil n n A (mean b) a i = 0).
      { apply rsum_0. intros j Hj. apply rsum_0. intros l Hl. rewrite Hb by exact Hj. ring. }
      assert (E2 : bil n n A a (mean b) i = 0).
      { apply rsum_0. intros j Hj. apply rsum_0. intros l Hl. rewrite Hb by exact Hl. ring. }
      rewrite E1, E2. ring.
  Qed.
End Mean.

(** ** Conditions of order one and two *)

Section Conditions.
  Variables n_s n_x n_e : nat.
  Variables (f1 g1 : nat -> nat -> R) (f2 g2 : nat -> nat -> nat -> R).
  Variables (X_s : nat -> nat -> R) (X_ss : nat -> nat -> nat -> R) (X_tt : vector).
  Let N := (n_s + (n_x + (n_s + n_x)))%nat.
  Let G := (n_s + (n_x + n_e))%nat.

  (** Variables of f from those of the two dates. *)
  Definition stack4 (s x s' x' : vector) : vector := glue n_s s (glue n_x x (glue n_s s' x')).
  Definition stack3 (s x e : vector) : vector := glue n_s s (glue n_x x e).

  (** First-order effects of a direction h and of a shock. *)
  Definition x_of (h : vector) : vector := lin n_s X_s h.
  Definition w_of (h : vector) : vector := stack3 h (x_of h) zero.
  Definition s_next (h : vector) : vector := lin G g1 (w_of h).
  Definition v_of (h : vector) : vector := stack4 h (x_of h) (s_next h) (x_of (s_next h)).
  Definition e_of (e : vector) : vector := stack3 zero zero e.
  Definition s_shock (e : vector) : vector := lin G g1 (e_of e).
  Definition v_shock (e : vector) : vector := stack4 zero zero (s_shock e) (x_of (s_shock e)).

  Definition condition1 : Prop := forall h i, (i < n_x)%nat -> lin N f1 (v_of h) i = 0.

  Definition s2_of (h : vector) : vector := fun i =>
    lin G g1 (stack3 zero (bil n_s n_s X_ss h h) zero) i + bil G G g2 (w_of h) (w_of h) i.
  Definition condition2 : Prop := forall h i, (i < n_x)%nat ->
    lin N f1 (stack4 zero (bil n_s n_s X_ss h h) (s2_of h)
                (fun i => x_of (s2_of h) i + bil n_s n_s X_ss (s_next h) (s_next h) i)) i
    + bil N N f2 (v_of h) (v_of h) i = 0.

  Variables (M : nat) (p : vector) (eps : nat -> vector).
  Definition s2_risk : vector := fun i =>
    lin G g1 (stack3 zero X_tt zero) i + mean M p (fun k => bil G G g2 (e_of (eps k)) (e_of (eps k))) i.
  Definition condition_risk : Prop := forall i, (i < n_x)%nat ->
    lin N f1 (stack4 zero X_tt s2_risk
                (fun i => x_of s2_risk i + mean M p (fun k => bil n_s n_s X_ss (s_shock (eps k)) (s_shock (eps k))) i + X_tt i)) i
    + mean M p (fun k => bil N N f2 (v_shock (eps k)) (v_shock (eps k))) i = 0.

  Lemma stack4_lin : forall s x s' x' c t y t' y' j,
      stack4 (fun j => s j + c * t j) (fun j => x j + c * y j) (fun j => s' j + c * t' j) (fun j => x' j + c * y' j) j
      = stack4 s x s' x' j + c * stack4 t y t' y' j.
  Proof. intros. unfold stack4, glue. destruct (Nat.ltb _ _); [reflexivity|]. destruct (Nat.ltb _ _); [reflexivity|]. destruct (Nat.ltb _ _); reflexivity. Qed.
  Lemma stack3_lin : forall s x e c t y e' j,
      stack3 (fun j => s j + c * t j) (fun j => x j + c * y j) (fun j => e j + c * e' j) j = stack3 s x e j + c * stack3 t y e' j.
  Proof. intros. unfold stack3, glue. destruct (Nat.ltb _ _); [reflexivity|]. destruct (Nat.ltb _ _); reflexivity. Qed.
  Lemma stack4_ext : forall s x s' x' t y t' y' j, (j < N)%nat ->
      (forall j, (j < n_s)%nat -> s j = t j) -> (forall j, (j < n_x)%nat -> x j = y j) ->
      (forall j, (j < n_s)%nat -> s' j = t' j) -> (forall j, (j < n_x)%nat -> x' j = y' j) ->
      stack4 s x s' x' j = stack4 t y t' y' j.
  Proof.
    intros s x s' x' t y t' y' j Hj H1 H2 H3 H4. unfold stack4. apply (glue_ext n_s (n_x + (n_s + n_x))); [exact H1| |exact Hj].
    intros k Hk. apply (glue_ext n_x (n_s + n_x)); [exact H2| |exact Hk]. intros l Hl. apply (glue_ext n_s n_x); assumption.
  Qed.

  Lemma mean_stack4 : forall M p s x s' x' j,
      mean M p (fun k => stack4 (s k) (x k) (s' k) (x' k)) j = stack4 (mean M p s) (mean M p x) (mean M p s') (mean M p x') j.
  Proof.
    intros. unfold stack4, glue, mean. destruct (Nat.ltb _ _); [reflexivity|]. destruct (Nat.ltb _ _); [reflexivity|]. destruct (Nat.ltb _ _); reflexivity.
  Qed.

  Hypothesis Hsh : rsum M p = 1.
  Hypothesis Hmean : forall j, (j < n_e)%nat -> rsum M (fun k => p k * eps k j) = 0.

  Lemma mean_e : forall j, (j < G)%nat -> mean M p (fun k => e_of (eps k)) j = 0.
  Proof.
    intros j Hj. unfold e_of, stack3. rewrite mean_glue. unfold glue at 1. destruct (Nat.ltb_spec j n_s).
    - unfold zero. unfold mean. apply rsum_0. intros. ring.
    - rewrite mean_glue. unfold glue. destruct (Nat.ltb_spec (j - n_s) n_x).
      + unfold zero, mean. apply rsum_0. intros. ring.
      + apply Hmean. unfold G in Hj. lia.
  Qed.
  Lemma mean_s_shock : forall j, mean M p (fun k => s_shock (eps k)) j = 0.
  Proof. intros j. unfold s_shock. rewrite mean_lin. apply lin_zero. exact mean_e. Qed.
  Lemma mean_v_shock : forall j, mean M p (fun k => v_shock (eps k)) j = 0.
  Proof.
    intros j. unfold v_shock, stack4. rewrite mean_glue. unfold glue at 1. destruct (Nat.ltb _ _).
    - unfold zero, mean. apply rsum_0. intros. ring.
    - rewrite mean_glue. unfold glue at 1. destruct (Nat.ltb _ _).
      + unfold zero, mean. apply rsum_0. intros. ring.
      + rewrite mean_glue. unfold glue. destruct (Nat.ltb _ _); [apply mean_s_shock|].
        unfold x_of. rewrite mean_lin. apply lin_zero. intros. apply mean_s_shock.
  Qed.

  Hypothesis C1 : condition1.
  Hypothesis C2 : condition2.
  Hypothesis CR : condition_risk.
  Variables (f g : vector -> vector).
  Hypothesis Hf : expands2 N n_x f f1 f2.
  Hypothesis Hg : expands2 G n_s g g1 g2.

  (** Rules with the same expansion to order 2 as rule2. *)
  Variable phi : vector -> R -> vector.
  Hypothesis Hphi : forall mu (s : R -> vector) a b c j, (forall l, (l < n_s)%nat -> jet 2 (fun t => s t l) (a l) (b l) (c l)) ->
    jet 2 (fun t => phi (s t) (t * mu) j)
      (lin n_s X_s a j) (lin n_s X_s b j + / 2 * bil n_s n_s X_ss a a j + mu ^ 2 / 2 * X_tt j) 0.

  Theorem second_order_accurate_gen :
    accurate 3 n_s n_x M p eps f g phi.
  Proof.
    intros h mu. pose proof (Hphi mu) as Jrule.
    apply (big_components 3 n_x (fun i t => residual n_s n_x M p eps f g phi (fun j => t * h j) (t * mu) i)).
    intros i Hi. apply jet_zero.
    (* coefficients along the line *)
    set (x2 := fun j => / 2 * bil n_s n_s X_ss h h j + mu ^ 2 / 2 * X_tt j).
    set (w1 := fun k j => w_of h j + mu * e_of (eps k) j).
    set (S1 := fun k j => s_next h j + mu * s_shock (eps k) j).
    set (S2 := fun k j => lin G g1 (stack3 zero x2 zero) j + / 2 * bil G G g2 (w1 k) (w1 k) j).
    set (X2 := fun k j => x_of (S2 k) j + / 2 * bil n_s n_s X_ss (S1 k) (S1 k) j + mu ^ 2 / 2 * X_tt j).
    set (v1 := fun k j => v_of h j + mu * v_shock (eps k) j).
    set (v2 := fun k => stack4 zero x2 (S2 k) (X2 k)).
    assert (Jk : forall k, (k < M)%nat ->
      jet 2 (fun t => let x := phi (fun j => t * h j) (t * mu) in
                      let s' := g (glue n_s (fun j => t * h j) (glue n_x x (fun j => t * mu * eps k j))) in
                      f (glue n_s (fun j => t * h j) (glue n_x x (glue n_s s' (phi s' (t * mu))))) i)
        (lin N f1 (v1 k) i) (lin N f1 (v2 k) i + / 2 * bil N N f2 (v1 k) (v1 k) i) 0).
    { intros k Hk. cbv zeta.
      assert (Js : forall j, (j < n_s)%nat -> jet 2 (fun t => t * h j) (h j) (zero j) (zero j)) by (intros; apply jet_line).
      assert (Jx : forall j, (j < n_x)%nat -> jet 2 (fun t => phi (fun j => t * h j) (t * mu) j) (x_of h j) (x2 j) (zero j)).
      { intros j _. eapply jet_eq; [| | |apply (Jrule (fun t j => t * h j) h zero zero j Js)]; [reflexivity| |reflexivity].
        unfold x2. rewrite (lin_zero n_s X_s zero) by reflexivity. ring. }
      assert (Jw : forall j, (j < G)%nat -> jet 2 (fun t => glue n_s (fun j => t * h j) (glue n_x (phi (fun j => t * h j) (t * mu)) (fun j => t * mu * eps k j)) j)
                 (stack3 h (x_of h) (fun j => mu * eps k j) j) (stack3 zero x2 zero j) (stack3 zero zero zero j)).
      { intros j Hj. unfold stack3. apply (jet_glue 2 n_s (n_x + n_e) (fun t j => t * h j)
            (fun t => glue n_x (phi (fun j => t * h j) (t * mu)) (fun j => t * mu * eps k j))); [exact Js| |exact Hj].
        intros l Hl. apply (jet_glue 2 n_x n_e (fun t => phi (fun j => t * h j) (t * mu)) (fun t j => t * mu * eps k j)); [exact Jx| |exact Hl].
        intros q _. refine (jet_ext 2 (fun t => t * (mu * eps k q)) _ _ _ _ _ (jet_line 2 _)). intros t. ring. }
      assert (Ew : forall j, stack3 h (x_of h) (fun j => mu * eps k j) j = w1 k j).
      { intros j. unfold w1, w_of, e_of. rewrite <- stack3_lin. unfold stack3, glue, zero.
        destruct (Nat.ltb _ _); [ring|]. destruct (Nat.ltb _ _); ring. }
      assert (JS : forall j, (j < n_s)%nat -> jet 2 (fun t => g (glue n_s (fun j => t * h j) (glue n_x (phi (fun j => t * h j) (t * mu)) (fun j => t * mu * eps k j))) j)
                 (S1 k j) (S2 k j) (zero j)).
      { intros j Hj. eapply jet_eq; [| | |apply (jet_expands2 G n_s g g1 g2 _ _ _ _ Hg Jw j Hj)]; [| |reflexivity].
        - unfold S1, s_next, s_shock. rewrite <- lin_scal, <- lin_plus. apply lin_ext_v. intros l _. apply Ew.
        - unfold S2. f_equal. f_equal. apply bil_ext_v; intros l _; apply Ew. }
      eapply jet_eq; [| | |apply (jet_expands2 N n_x f f1 f2
           (fun t => glue n_s (fun j => t * h j) (glue n_x (phi (fun j => t * h j) (t * mu))
              (glue n_s (g (glue n_s (fun j => t * h j) (glue n_x (phi (fun j => t * h j) (t * mu)) (fun j => t * mu * eps k j))))
                 (phi (g (glue n_s (fun j => t * h j) (glue n_x (phi (fun j => t * h j) (t * mu)) (fun j => t * mu * eps k j)))) (t * mu)))))
           (stack4 h (x_of h) (S1 k) (x_of (S1 k))) (v2 k) (stack4 zero zero zero zero) Hf); [|exact Hi]];
        [ | |reflexivity| ].
      - apply lin_ext_v. intros j Hj. unfold v1, v_of, v_shock. rewrite <- stack4_lin. apply stack4_ext; [exact Hj| | | |].
        + intros l _. unfold zero. ring.
        + intros l _. unfold zero. ring.
        + intros l _. reflexivity.
        + intros l _. unfold x_of, S1. rewrite lin_plus, lin_scal. reflexivity.
      - f_equal. f_equal.
        assert (Ev : forall j, (j < N)%nat -> stack4 h (x_of h) (S1 k) (x_of (S1 k)) j = v1 k j).
        { intros j Hj. unfold v1, v_of, v_shock. rewrite <- stack4_lin. apply stack4_ext; [exact Hj| | | |].
          + intros l _. unfold zero. ring.
          + intros l _. unfold zero. ring.
          + intros l _. reflexivity.
          + intros l _. unfold x_of, S1. rewrite lin_plus, lin_scal. reflexivity. }
        apply bil_ext_v; exact Ev.
      - intros j Hj. unfold v2, stack4.
        refine (jet_glue 2 n_s (n_x + (n_s + n_x)) (fun t j => t * h j) _ _ _ _ _ _ _ Js _ j Hj).
        intros l Hl. refine (jet_glue 2 n_x (n_s + n_x) (fun t => phi (fun j => t * h j) (t * mu)) _ _ _ _ _ _ _ Jx _ l Hl).
        intros q Hq. refine (jet_glue 2 n_s n_x (fun t => g (glue n_s (fun j => t * h j) (glue n_x (phi (fun j => t * h j) (t * mu)) (fun j => t * mu * eps k j)))) _ _ _ _ _ _ _ JS _ q Hq).
        intros r Hr. eapply jet_eq; [| | |apply (Jrule _ (S1 k) (S2 k) zero r JS)]; reflexivity. }
    unfold residual. eapply jet_eq; [| | |apply (jet_rsum 2 M _ (fun k => p k * lin N f1 (v1 k) i)
        (fun k => p k * (lin N f1 (v2 k) i + / 2 * bil N N f2 (v1 k) (v1 k) i)) (fun k => p k * 0))].
    - (* order one *)
      change (mean M p (fun k => lin N f1 (v1 k)) i = 0). rewrite mean_lin.
      rewrite (lin_ext_v N f1 _ (v_of h) i); [apply C1; exact Hi|].
      intros j Hj. unfold v1. rewrite (mean_plus M p (fun _ => v_of h)), mean_const by exact Hsh.
      rewrite (mean_scal M p mu (fun k => v_shock (eps k))), mean_v_shock. ring.
    - (* order two *)
      change (mean M p (fun k i => lin N f1 (v2 k) i + / 2 * bil N N f2 (v1 k) (v1 k) i) i = 0).
      rewrite (mean_plus M p (fun k => lin N f1 (v2 k))), (mean_scal M p (/ 2) (fun k => bil N N f2 (v1 k) (v1 k))), mean_lin.
      unfold v1. rewrite (mean_quadratic M p Hsh N f2 (v_of h) mu (fun k => v_shock (eps k))) by (intros; apply mean_v_shock).
      (* mean of v2 *)
      assert (ES2 : forall j, mean M p S2 j = / 2 * (s2_of h j + mu ^ 2 * s2_risk j)).
      { intros j. unfold S2. rewrite (mean_plus M p (fun _ => lin G g1 (stack3 zero x2 zero))), mean_const by exact Hsh.
        rewrite (mean_scal M p (/ 2) (fun k => bil G G g2 (w1 k) (w1 k))). unfold w1.
        rewrite (mean_quadratic M p Hsh G g2 (w_of h) mu (fun k => e_of (eps k))) by (intros; apply mean_e; assumption).
        unfold s2_of, s2_risk.
        rewrite (lin_ext_v G g1 (stack3 zero x2 zero) (fun j => / 2 * (stack3 zero (bil n_s n_s X_ss h h) zero j + mu ^ 2 * stack3 zero X_tt zero j)) j).
        - rewrite (lin_scal G g1 (/ 2) (fun j => stack3 zero (bil n_s n_s X_ss h h) zero j + mu ^ 2 * stack3 zero X_tt zero j) j).
          rewrite (lin_plus G g1 (stack3 zero (bil n_s n_s X_ss h h) zero) (fun j => mu ^ 2 * stack3 zero X_tt zero j) j).
          rewrite (lin_scal G g1 (mu ^ 2) (stack3 zero X_tt zero) j). ring.
        - intros l _. unfold stack3, glue, zero, x2. destruct (Nat.ltb _ _); [ring|]. destruct (Nat.ltb _ _); field. }
      assert (EX2 : forall j, mean M p X2 j = / 2 * ((x_of (s2_of h) j + bil n_s n_s X_ss (s_next h) (s_next h) j)
           + mu ^ 2 * (x_of s2_risk j + mean M p (fun k => bil n_s n_s X_ss (s_shock (eps k)) (s_shock (eps k))) j + X_tt j))).
      { intros j. unfold X2. rewrite (mean_plus M p (fun k j => x_of (S2 k) j + / 2 * bil n_s n_s X_ss (S1 k) (S1 k) j)).
        rewrite (mean_const M p Hsh (fun j => mu ^ 2 / 2 * X_tt j)).
        rewrite (mean_plus M p (fun k => x_of (S2 k))). unfold x_of at 1. rewrite (mean_lin M p n_s X_s S2).
        rewrite (mean_scal M p (/ 2) (fun k => bil n_s n_s X_ss (S1 k) (S1 k))). unfold S1.
        rewrite (mean_quadratic M p Hsh n_s X_ss (s_next h) mu (fun k => s_shock (eps k))) by (intros; apply mean_s_shock).
        rewrite (lin_ext_v n_s X_s (mean M p S2) (fun j => / 2 * (s2_of h j + mu ^ 2 * s2_risk j)) j) by (intros; apply ES2).
        rewrite lin_scal, lin_plus, lin_scal. unfold x_of. field. }
      pose proof (C2 h i Hi) as E2. pose proof (CR i Hi) as E3.
      rewrite (lin_ext_v N f1 (mean M p v2)
        (fun j => / 2 * (stack4 zero (bil n_s n_s X_ss h h) (s2_of h) (fun i => x_of (s2_of h) i + bil n_s n_s X_ss (s_next h) (s_next h) i) j
           + mu ^ 2 * stack4 zero X_tt s2_risk (fun i => x_of s2_risk i + mean M p (fun k => bil n_s n_s X_ss (s_shock (eps k)) (s_shock (eps k))) i + X_tt i) j)) i).
      + rewrite lin_scal, lin_plus, lin_scal. nra.
      + intros j Hj. unfold v2.
        rewrite (mean_stack4 M p (fun _ => zero) (fun _ => x2) S2 X2). unfold stack4, glue.
        destruct (Nat.ltb j n_s); [unfold zero, mean; rewrite rsum_0 by (intros; ring); ring|].
        destruct (Nat.ltb (j - n_s) n_x); [rewrite mean_const by exact Hsh; unfold x2; field|].
        destruct (Nat.ltb (j - n_s - n_x) n_s); [apply ES2|apply EX2].
    - apply rsum_0. intros. ring.
    - intros k Hk. apply (jet_scal 2 (p k) _ _ _ 0). exact (Jk k Hk).
  Qed.
End Conditions.

Section Rules.
  Variable n_s : nat.
  Variables (X_s : nat -> nat -> R) (X_ss : nat -> nat -> nat -> R) (X_tt : vector).

  Lemma rule2_jet : forall mu (s : R -> vector) a b c j, (forall l, (l < n_s)%nat -> jet 2 (fun t => s t l) (a l) (b l) (c l)) ->
      jet 2 (fun t => rule2 n_s X_s X_ss X_tt (s t) (t * mu) j)
        (lin n_s X_s a j) (lin n_s X_s b j + / 2 * bil n_s n_s X_ss a a j + mu ^ 2 / 2 * X_tt j) 0.
  Proof.
    intros mu s a b c j Hs. unfold rule2, poly2.
    apply (jet2_free _ _ _ (lin n_s X_s c j + / 2 * (bil n_s n_s X_ss a b j + bil n_s n_s X_ss b a j) + 0)).
    eapply jet_eq; [| | |apply jet_plus; [apply jet_plus; [apply (jet_lin 2 n_s X_s s a b c j Hs)|
        apply jet_scal; apply (jet_bil 2 n_s n_s X_ss s s a b c a b c j); [lia|exact Hs|exact Hs]]|
        refine (jet_ext 2 (fun t => t * 0 + t ^ 2 * (mu ^ 2 / 2 * X_tt j) + t ^ 3 * 0) _ _ _ _ _ (jet_exact 2 _ _ _)); intros t; field]]; ring.
  Qed.

  Lemma rule3_jet : forall X_sss X_stt mu (s : R -> vector) a b c j, (forall l, (l < n_s)%nat -> jet 2 (fun t => s t l) (a l) (b l) (c l)) ->
      jet 2 (fun t => rule3 n_s X_s X_ss X_sss X_tt X_stt (s t) (t * mu) j)
        (lin n_s X_s a j) (lin n_s X_s b j + / 2 * bil n_s n_s X_ss a a j + mu ^ 2 / 2 * X_tt j) 0.
  Proof.
    intros X_sss X_stt mu s a b c j Hs.
    refine (jet_ext 2 (fun t => rule2 n_s X_s X_ss X_tt (s t) (t * mu) j +
                                (/ 6 * tri n_s n_s n_s X_sss (s t) (s t) (s t) j + (t * mu) ^ 2 / 2 * lin n_s X_stt (s t) j)) _ _ _ _ _ _).
    - intros t. unfold rule3, rule2, poly3. field.
    - apply (jet2_free _ _ _ (0 + (/ 6 * tri n_s n_s n_s X_sss a a a j + 0))).
      eapply jet_eq; [| | |apply jet_plus; [apply (rule2_jet mu s a b c j Hs)|apply jet_plus;
        [apply jet_scal; apply (jet_tri 2 n_s n_s n_s X_sss s s s a b c a b c a b c j); [lia|exact Hs|exact Hs|exact Hs]|]]].
      4:{ instantiate (1 := 0). instantiate (1 := 0). instantiate (1 := 0). unfold jet.
          apply (big_ext 3 (fun t => mu ^ 2 / 2 * t ^ 2 * lin n_s X_stt (s t) j)); [intros t; field|].
          apply (big_mul 2 1); [apply big_pow|]. eapply (jet_big1 2); [lia|]. apply (jet_lin 2 n_s X_stt s a b c j Hs). }
      + ring.
      + ring.
      + ring.
  Qed.
End Rules.
