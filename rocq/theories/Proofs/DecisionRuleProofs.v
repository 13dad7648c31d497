From Coq Require Import String Reals List Arith Lia Lra.
From Verif.Base Require Import Prelude Arrays.
From Verif.Spec Require Import Product Interpolation.
From Verif.Model Require Import Grids DecisionRule.
From Verif.Proofs Require Import GridProofs.
Import ListNotations.
Open Scope R_scope.

Lemma reshape_last_ok : forall x dims k, (0 < prodn dims)%nat -> prodn (nd_shape x) = (prodn dims * k)%nat ->
    reshape_last x dims = Ok {| nd_shape := dims ++ [k]; nd_data := nd_data x |}.
Proof.
  intros x dims k Hp E. unfold reshape_last. rewrite E.
  destruct (Nat.eqb_spec (prodn dims) 0); [lia|].
  rewrite Nat.mul_comm, Nat.mod_mul by lia. cbn [Nat.eqb]. rewrite Nat.div_mul by lia. reflexivity.
Qed.

Lemma nd_item_ok : forall x n sh i, nd_shape x = n :: sh -> (i < n)%nat ->
    nd_item x i = Ok {| nd_shape := sh; nd_data := fun k => nd_data x (i * prodn sh + k)%nat |}.
Proof. intros x n sh i E H. unfold nd_item. rewrite E. destruct (Nat.ltb_spec i n); [reflexivity|lia]. Qed.

Lemma map_res_ok : forall {A B} (f : A -> res B) l, (forall a, In a l -> exists b, f a = Ok b) ->
    exists bs, map_res f l = Ok bs /\ length bs = length l /\
      forall i a b, nth_error l i = Some a -> f a = Ok b -> nth_error bs i = Some b.
Proof.
  intros A B f. induction l as [|a l IH]; intros H.
  - exists []. split; [reflexivity|]. split; [reflexivity|]. intros [|i] ? ? Hn; discriminate.
  - destruct (H a (or_introl eq_refl)) as (b & Eb).
    destruct IH as (bs & E & L & Hn); [intros; apply H; right; assumption|].
    exists (b :: bs). cbn [map_res]. rewrite Eb. cbn [bind]. rewrite E. split; [reflexivity|].
    split; [simpl; lia|]. intros [|i] a' b' Ha Eb'; simpl in *.
    + injection Ha as <-. congruence.
    + eapply Hn; eassumption.
Qed.

Lemma nth_error_seq : forall n i, (i < n)%nat -> nth_error (seq 0 n) i = Some i.
Proof.
  intros n i H. rewrite (nth_error_nth' (seq 0 n) 0%nat) by (rewrite seq_length; exact H).
  rewrite seq_nth by exact H. reflexivity.
Qed.

Lemma values_at_shift : forall d n_x N i n sh,
    values_at {| nd_shape := sh; nd_data := fun k => d (i * (N * n_x) + k)%nat |} n_x n
    = values_at {| nd_shape := sh; nd_data := d |} n_x (i * N + n).
Proof.
  intros. unfold values_at. cbn [nd_data]. apply map_ext. intros j. f_equal. lia.
Qed.
Lemma values_at_data : forall c sh n_x k, values_at c n_x k = values_at {| nd_shape := sh; nd_data := nd_data c |} n_x k.
Proof. reflexivity. Qed.

Section Rules.
  Variable el : grid -> nd -> list (list R) -> res (list (list R)).
  Variable pre : grid -> nd -> res nd.
  Variable ec : grid -> nd -> list (list R) -> res (list (list R)).
  Hypothesis Hel : linear_contract el.
  Hypothesis Hec : cubic_contract pre ec.

  Lemma empty_rule : forall endo dims N n_x x k,
      cartesian_grid endo dims -> N = prodn dims -> (0 < N)%nat -> nd_shape x = [1; N; n_x]%nat ->
      k = Linear \/ k = Cubic ->
      exists c F, get_coefficients pre GEmpty endo k x = Ok c /\
        (forall pts, eval_s el ec GEmpty endo k c pts = Ok (map F pts)) /\
        (forall n, (n < N)%nat -> F (node_of endo n) = values_at x n_x n).
  Proof.
    intros endo dims N n_x x k HG EN HN Hsh Hk. assert (HG' := HG). destruct HG' as (Hd & Hn & _).
    destruct Hk as [-> | ->].
    - unfold get_coefficients, eval_s. rewrite Hd.
      rewrite (reshape_last_ok x dims n_x) by (rewrite ?Hsh; simpl; lia).
      cbn [bind]. destruct (Hel endo dims n_x {| nd_shape := dims ++ [n_x]; nd_data := nd_data x |} HG eq_refl) as (F & H1 & H2).
      exists (CArr {| nd_shape := dims ++ [n_x]; nd_data := nd_data x |}), F. split; [reflexivity|].
      split; [intros; cbn [arr_coefs bind]; apply H1|]. intros n Hlt. rewrite H2 by lia. reflexivity.
    - unfold get_coefficients, eval_s. rewrite Hd.
      rewrite (nd_item_ok x 1 [N; n_x] 0 Hsh) by lia. cbn [bind].
      rewrite (reshape_last_ok _ dims n_x) by (cbn [nd_shape prodn]; lia). cbn [bind nd_data].
      match goal with |- context [pre endo ?cc] =>
        destruct (Hec endo dims n_x cc HG eq_refl) as (c' & E & F & H1 & H2) end.
      rewrite E. cbn [bind]. exists (CArr c'), F. split; [reflexivity|].
      split; [intros; cbn [arr_coefs bind]; apply H1|]. intros n Hlt. rewrite H2 by lia. reflexivity.
  Qed.

  Lemma empty_call : forall endo dims n_x x k,
      cartesian_grid endo dims -> (0 < prodn dims)%nat -> nd_shape x = [1; prodn dims; n_x]%nat ->
      k = Linear \/ k = Cubic ->
      exists c, get_coefficients pre GEmpty endo k x = Ok c /\
        forall n, (n < prodn dims)%nat ->
          let s := P1 (node_of endo n) in
          let ev_s := eval_s el ec GEmpty endo k c in
          let ev_is := eval_is el ec GEmpty endo k c in
          let ev_ms := eval_ms el ec GEmpty endo k c in
          call1 ev_s s = Ok (P1 (values_at x n_x n)) /\
          (forall i, call2 ev_is ev_ms (Idx i) s = Ok (P1 (values_at x n_x n))) /\
          (forall m, call2 ev_is ev_ms (Pts (P1 m)) s = Ok (P1 (values_at x n_x n))).
  Proof.
    intros endo dims n_x x k HG HN Hsh Hk.
    destruct (empty_rule endo dims _ n_x x k HG eq_refl HN Hsh Hk) as (c & F & E & H1 & H2).
    exists c. split; [exact E|]. intros n Hn. cbv zeta.
    destruct HG as (Hd & _).
    unfold call1, call2, eval_is, eval_ms. split; [|split].
    - rewrite H1. cbn [map bind first_row]. rewrite H2 by exact Hn. reflexivity.
    - intros i. rewrite H1. cbn [map bind first_row]. rewrite H2 by exact Hn. reflexivity.
    - intros m. rewrite H1. cbn [map bind first_row]. rewrite H2 by exact Hn. reflexivity.
  Qed.

  Lemma unstructured_cubic_rule : forall nodes endo dims n_m n_x x,
      cartesian_grid endo dims -> (0 < prodn dims)%nat -> nd_shape x = [n_m; prodn dims; n_x]%nat ->
      exists c F, get_coefficients pre (GUnstructured nodes) endo Cubic x = Ok c /\
        (forall i pts, (i < n_m)%nat -> eval_is el ec (GUnstructured nodes) endo Cubic c (IInt i) pts = Ok (map (F i) pts)) /\
        (forall i n, (i < n_m)%nat -> (n < prodn dims)%nat ->
           F i (node_of endo n) = values_at x n_x (i * prodn dims + n)).
  Proof.
    intros nodes endo dims n_m n_x x HG HN Hsh. assert (HG' := HG). destruct HG' as (Hd & Hnn & _).
    assert (Hstep : forall i, (i < n_m)%nat -> exists b F,
              bind (nd_item x i) (fun xi => bind (reshape_last xi dims) (pre endo)) = Ok b /\
              (forall pts, ec endo b pts = Ok (map F pts)) /\
              forall n, (n < prodn dims)%nat -> F (node_of endo n) = values_at x n_x (i * prodn dims + n)).
    { intros i Hi. rewrite (nd_item_ok x n_m [prodn dims; n_x] i Hsh Hi). cbn [bind].
      rewrite (reshape_last_ok _ dims n_x) by (cbn [nd_shape prodn]; lia). cbn [bind nd_data].
      match goal with |- context [pre endo ?cc] =>
        destruct (Hec endo dims n_x cc HG eq_refl) as (c' & E & F & H1 & H2) end.
      exists c', F. split; [exact E|]. split; [exact H1|]. intros n Hn. rewrite H2 by lia.
      cbn [prodn]. rewrite Nat.mul_1_r. rewrite values_at_shift. reflexivity. }
    destruct (map_res_ok (fun i => bind (nd_item x i) (fun xi => bind (reshape_last xi dims) (pre endo))) (seq 0 n_m)) as (bs & E & L & Hb).
    { intros i Hi. apply in_seq in Hi. destruct (Hstep i ltac:(lia)) as (b & F & Eb & _). exists b. exact Eb. }
    assert (HF : forall i, exists F, (i < n_m)%nat ->
        (forall pts, eval_is el ec (GUnstructured nodes) endo Cubic (CList bs) (IInt i) pts = Ok (map F pts)) /\
        forall n, (n < prodn dims)%nat -> F (node_of endo n) = values_at x n_x (i * prodn dims + n)).
    { intros i. destruct (le_lt_dec n_m i) as [Hi|Hi]; [exists (fun _ => []); lia|].
      destruct (Hstep i Hi) as (b & F & Eb & HF1 & HF2). exists F. intros _. split; [|exact HF2].
      intros pts. unfold eval_is. rewrite Hd. cbn [list_coefs].
      rewrite (Hb i i b (nth_error_seq _ _ Hi) Eb). cbn [bind]. apply HF1. }
    assert (exists F : nat -> list R -> list R, forall i, (i < n_m)%nat ->
        (forall pts, eval_is el ec (GUnstructured nodes) endo Cubic (CList bs) (IInt i) pts = Ok (map (F i) pts)) /\
        forall n, (n < prodn dims)%nat -> F i (node_of endo n) = values_at x n_x (i * prodn dims + n)) as (F & HFF).
    { clear - HF. assert (HK : forall K, exists F : nat -> list R -> list R, forall i, (i < K)%nat -> (i < n_m)%nat ->
        (forall pts, eval_is el ec (GUnstructured nodes) endo Cubic (CList bs) (IInt i) pts = Ok (map (F i) pts)) /\
        forall n, (n < prodn dims)%nat -> F i (node_of endo n) = values_at x n_x (i * prodn dims + n)).
      { induction K as [|K (F & IH)]; [exists (fun _ _ => []); intros; lia|].
        destruct (HF K) as (G & HG). exists (fun i => if Nat.eqb i K then G else F i). intros i Hi Hm.
        destruct (Nat.eqb_spec i K) as [->|]; [apply HG; exact Hm|apply IH; lia]. }
      destruct (HK n_m) as (F & H). exists F. intros i Hi. apply H; exact Hi. }
    exists (CList bs), F. split.
    - unfold get_coefficients. rewrite Hd, Hsh. cbn [hd]. rewrite E. reflexivity.
    - split; [intros i pts Hi; apply HFF; exact Hi|intros i n Hi; apply HFF; exact Hi].
  Qed.

  Lemma unstructured_cubic_call : forall nodes endo dims n_m n_x x,
      cartesian_grid endo dims -> (0 < prodn dims)%nat -> nd_shape x = [n_m; prodn dims; n_x]%nat ->
      exists c, get_coefficients pre (GUnstructured nodes) endo Cubic x = Ok c /\
        forall i n, (i < n_m)%nat -> (n < prodn dims)%nat ->
          call2 (eval_is el ec (GUnstructured nodes) endo Cubic c) (eval_ms el ec (GUnstructured nodes) endo Cubic c)
            (Idx (IInt i)) (P1 (node_of endo n)) = Ok (P1 (values_at x n_x (i * prodn dims + n))).
  Proof.
    intros nodes endo dims n_m n_x x HG HN Hsh.
    destruct (unstructured_cubic_rule nodes endo dims n_m n_x x HG HN Hsh) as (c & F & E & H1 & H2).
    exists c. split; [exact E|]. intros i n Hi Hn. unfold call2. rewrite H1 by exact Hi.
    cbn [map bind first_row]. rewrite H2 by assumption. reflexivity.
  Qed.

  Lemma unstructured_linear_call : forall nodes endo n_m N n_x x,
      cartesian_grid endo [N] -> nd_shape x = [n_m; N; n_x]%nat ->
      exists c, get_coefficients pre (GUnstructured nodes) endo Linear x = Ok c /\
        forall i n, (i < n_m)%nat -> (n < N)%nat ->
          call2 (eval_is el ec (GUnstructured nodes) endo Linear c) (eval_ms el ec (GUnstructured nodes) endo Linear c)
            (Idx (IInt i)) (P1 (node_of endo n)) = Ok (P1 (values_at x n_x (i * N + n))).
  Proof.
    intros nodes endo n_m N n_x x HG Hsh. assert (HG' := HG). destruct HG' as (Hd & Hnn & _).
    destruct (map_res_ok (nd_item x) (seq 0 n_m)) as (bs & E & L & Hb).
    { intros i Hi. apply in_seq in Hi. eexists. apply (nd_item_ok x n_m [N; n_x] i Hsh). lia. }
    exists (CList bs). split.
    - unfold get_coefficients. rewrite Hd, Hsh. cbn [hd]. rewrite E. reflexivity.
    - intros i n Hi Hn. unfold call2, eval_is. rewrite Hd. cbn [list_coefs].
      rewrite (Hb i i _ (nth_error_seq _ _ Hi) (nd_item_ok x n_m [N; n_x] i Hsh Hi)). cbn [bind].
      match goal with |- context [el endo ?cc _] => destruct (Hel endo [N] n_x cc HG eq_refl) as (F & H1 & H2) end.
      rewrite H1. cbn [map bind first_row]. rewrite H2 by (rewrite Hnn; cbn [prodn]; lia).
      cbn [prodn]. rewrite Nat.mul_1_r. rewrite values_at_shift. reflexivity.
  Qed.
End Rules.

(** An interpolant meeting the contract: the stored value at a node, 0 elsewhere; it refuses
    values that do not have the shape of the grid. *)
Definition node_index (g : grid) (p : list R) : option nat :=
  find (fun k => if list_eq_dec Req_EM_T (node_of g k) p then true else false) (seq 0 (n_nodes g)).
Definition lookup_row (g : grid) (c : nd) (p : list R) : list R :=
  let n_x := last (nd_shape c) 0%nat in
  match node_index g p with Some k => values_at c n_x k | None => repeat 0 n_x end.
Definition lookup_linear (g : grid) (c : nd) (pts : list (list R)) : res (list (list R)) :=
  match grid_dims g with
  | Some dims => if list_eq_dec Nat.eq_dec (removelast (nd_shape c)) dims
                 then Ok (map (lookup_row g c) pts) else Err ExcType
  | None => Err ExcType
  end.

Lemma node_index_node : forall g k, distinct_nodes g -> (k < n_nodes g)%nat -> node_index g (node_of g k) = Some k.
Proof.
  intros g k Hd Hk. unfold node_index. destruct (find _ _) as [j|] eqn:E.
  - apply find_some in E. destruct E as (Hin & Ht). apply in_seq in Hin.
    destruct (list_eq_dec Req_EM_T (node_of g j) (node_of g k)) as [Heq|]; [|discriminate].
    f_equal. apply Hd; [lia|exact Hk|exact Heq].
  - exfalso. pose proof (find_none _ _ E k) as H. rewrite in_seq in H. specialize (H ltac:(lia)).
    cbv beta in H. destruct (list_eq_dec Req_EM_T (node_of g k) (node_of g k)); [discriminate|contradiction].
Qed.

Lemma lookup_contract : linear_contract lookup_linear.
Proof.
  intros g dims n_x c (Hd & Hn & Hdist) Hsh. exists (lookup_row g c). split.
  - intros pts. unfold lookup_linear. rewrite Hd, Hsh, removelast_last.
    destruct (list_eq_dec Nat.eq_dec dims dims); [reflexivity|contradiction].
  - intros k Hk. unfold lookup_row. rewrite Hsh, last_last, node_index_node by assumption. reflexivity.
Qed.

Lemma lookup_cubic_contract : cubic_contract (fun _ c => Ok c) lookup_linear.
Proof.
  intros g dims n_x c HG Hsh. exists c. split; [reflexivity|]. exact (lookup_contract g dims n_x c HG Hsh).
Qed.

(** With two or more axes, the coefficients of an unstructured-linear rule do not have the shape of
    the grid. *)
Lemma unstructured_linear_wrong : forall nodes endo dims n_m n_x x,
    cartesian_grid endo dims -> (2 <= length dims)%nat -> nd_shape x = [n_m; prodn dims; n_x]%nat ->
    exists el, linear_contract el /\
      forall pre ec c i n, get_coefficients pre (GUnstructured nodes) endo Linear x = Ok c -> (i < n_m)%nat ->
        call2 (eval_is el ec (GUnstructured nodes) endo Linear c) (eval_ms el ec (GUnstructured nodes) endo Linear c)
            (Idx (IInt i)) (P1 (node_of endo n)) = Err ExcType.
Proof.
  intros nodes endo dims n_m n_x x (Hd & Hn & _) Hlen Hsh. exists lookup_linear. split; [exact lookup_contract|].
  intros pre ec c i n Hc Hi.
  unfold get_coefficients in Hc. rewrite Hd, Hsh in Hc. cbn [hd] in Hc.
  destruct (map_res_ok (nd_item x) (seq 0 n_m)) as (bs & E & L & Hb).
  { intros j Hj. apply in_seq in Hj. eexists. apply (nd_item_ok x n_m [prodn dims; n_x] j Hsh). lia. }
  rewrite E in Hc. cbn [bind] in Hc. injection Hc as <-.
  unfold call2, eval_is. rewrite Hd. cbn [list_coefs].
  rewrite (Hb i i _ (nth_error_seq _ _ Hi) (nd_item_ok x n_m [prodn dims; n_x] i Hsh Hi)). cbn [bind].
  unfold lookup_linear. rewrite Hd. cbn [nd_shape removelast].
  destruct (list_eq_dec Nat.eq_dec [prodn dims] dims) as [Eq|]; [|reflexivity].
  rewrite <- Eq in Hlen. simpl in Hlen. lia.
Qed.

(** ** Two Cartesian grids *)
Lemma valid_app : forall d1 d2 i1 i2, valid_index d1 i1 -> valid_index d2 i2 -> valid_index (d1 ++ d2) (i1 ++ i2).
Proof. intros. apply Forall2_app; assumption. Qed.

Lemma valid_len : forall d i, valid_index d i -> length i = length d.
Proof. intros d i H. induction H; simpl; congruence. Qed.

Lemma rank_app : forall d1 d2 i1 i2, valid_index d1 i1 -> rank (d1 ++ d2) (i1 ++ i2) = (rank d1 i1 * prodn d2 + rank d2 i2)%nat.
Proof.
  intros d1 d2 i1 i2 H. induction H as [|i d is ds Hi H IH]; simpl; [reflexivity|].
  rewrite IH, prodn_app. lia.
Qed.

Lemma nonuniform_sum_node : forall a1 a2 g1 g2 g,
    nonuniform_grid a1 = Ok g1 -> nonuniform_grid a2 = Ok g2 -> nonuniform_add g1 g2 = Ok g ->
    forall i n, (i < nrow (nu_nodes g1))%nat -> (n < nrow (nu_nodes g2))%nat ->
      row (nu_nodes g) (i * nrow (nu_nodes g2) + n) = row (nu_nodes g1) i ++ row (nu_nodes g2) n.
Proof.
  intros a1 a2 g1 g2 g H1 H2 H3 i n Hi Hn.
  destruct (nonuniform_grid_inv _ _ H1) as (N1 & P1 & E1).
  destruct (nonuniform_grid_inv _ _ H2) as (N2 & P2 & E2).
  destruct (nonuniform_grid_ok a1 N1 P1) as (g1' & G1 & _ & R1 & C1 & En1).
  destruct (nonuniform_grid_ok a2 N2 P2) as (g2' & G2 & _ & R2 & C2 & En2).
  rewrite H1 in G1. injection G1 as <-. rewrite H2 in G2. injection G2 as <-.
  unfold nonuniform_add in H3. rewrite E1, E2 in H3.
  destruct (nonuniform_grid_ok (a1 ++ a2)) as (g' & G & _ & Rr & Cc & En).
  { destruct a1; [contradiction|discriminate]. }
  { apply Forall_app. split; assumption. }
  rewrite H3 in G. injection G as <-.
  rewrite R1 in Hi. rewrite R2 in Hn |- *.
  destruct (rank_surj _ _ Hi) as (x1 & V1 & K1). destruct (rank_surj _ _ Hn) as (x2 & V2 & K2).
  assert (L1 := valid_len _ _ V1). assert (L2 := valid_len _ _ V2). rewrite map_length in L1, L2.
  assert (HV : valid_index (map (@length R) (a1 ++ a2)) (x1 ++ x2)) by (rewrite map_app; apply valid_app; assumption).
  assert (HR : rank (map (@length R) (a1 ++ a2)) (x1 ++ x2) = (i * prodn (map (@length R) a2) + n)%nat).
  { rewrite map_app, rank_app by assumption. rewrite K1, K2. reflexivity. }
  apply nth_ext with (d := 0) (d' := 0).
  { unfold row. rewrite app_length, !map_length, !seq_length, Cc, C1, C2, app_length. reflexivity. }
  intros k Hk. unfold row in Hk. rewrite map_length, seq_length, Cc, app_length in Hk.
  assert (Hrow : forall (M : mat) r k, (k < ncol M)%nat -> nth k (row M r) 0 = mget M r k).
  { intros M r k0 Hk0. unfold row. rewrite (nth_indep _ 0 (mget M r 0%nat)) by (rewrite map_length, seq_length; exact Hk0).
    rewrite map_nth, seq_nth by exact Hk0. reflexivity. }
  rewrite Hrow by (rewrite Cc, app_length; exact Hk).
  rewrite <- HR. rewrite (En _ HV k) by (rewrite app_length; exact Hk).
  destruct (lt_dec k (length a1)) as [Hlt|Hge].
  - rewrite (app_nth1 x1) by lia. rewrite (app_nth1 a1) by lia.
    rewrite app_nth1 by (unfold row; rewrite map_length, seq_length, C1; lia).
    rewrite Hrow by (rewrite C1; lia). rewrite <- K1. symmetry. apply En1; assumption.
  - rewrite (app_nth2 x1) by lia. rewrite (app_nth2 a1) by lia.
    rewrite app_nth2 by (unfold row; rewrite map_length, seq_length, C1; lia).
    unfold row at 1. rewrite map_length, seq_length, C1, L1.
    rewrite Hrow by (rewrite C2; lia). rewrite <- K2. symmetry. apply En2; [assumption|lia].
Qed.

Lemma row_length : forall M r, length (row M r) = ncol M.
Proof. intros. unfold row. rewrite map_length, seq_length. reflexivity. Qed.

Lemma nonuniform_sum_cartesian : forall a1 a2 g1 g2 g,
    nonuniform_grid a1 = Ok g1 -> nonuniform_grid a2 = Ok g2 -> nonuniform_add g1 g2 = Ok g ->
    distinct_nodes (GNonUniform g1) -> distinct_nodes (GNonUniform g2) ->
    cartesian_grid (GNonUniform g) (map (@length R) (a1 ++ a2)) /\
    nrow (nu_nodes g) = (nrow (nu_nodes g1) * nrow (nu_nodes g2))%nat.
Proof.
  intros a1 a2 g1 g2 g H1 H2 H3 D1 D2.
  pose proof (nonuniform_sum_node a1 a2 g1 g2 g H1 H2 H3) as Hnode.
  destruct (nonuniform_add_ok a1 a2 g1 g2 H1 H2) as (g' & G & A & Rr & _).
  rewrite H3 in G. injection G as <-.
  destruct (nonuniform_grid_inv _ _ H1) as (N1 & P1 & E1).
  destruct (nonuniform_grid_inv _ _ H2) as (N2 & P2 & E2).
  destruct (nonuniform_grid_ok a1 N1 P1) as (g1' & G1 & _ & R1 & C1 & _).
  destruct (nonuniform_grid_ok a2 N2 P2) as (g2' & G2 & _ & R2 & C2 & _).
  rewrite H1 in G1. injection G1 as <-. rewrite H2 in G2. injection G2 as <-.
  split; [|exact Rr]. split; [cbn [grid_dims]; rewrite A; reflexivity|].
  split; [cbn [n_nodes]; rewrite Rr, R1, R2, map_app, prodn_app; reflexivity|].
  intros j k Hj Hk E. cbn [n_nodes node_of] in *. rewrite Rr in Hj, Hk.
  assert (Hpos : (0 < nrow (nu_nodes g2))%nat) by (destruct (nrow (nu_nodes g2)); lia).
  pose proof (Nat.div_mod j (nrow (nu_nodes g2)) ltac:(lia)) as Dj.
  pose proof (Nat.div_mod k (nrow (nu_nodes g2)) ltac:(lia)) as Dk.
  pose proof (Nat.mod_upper_bound j (nrow (nu_nodes g2)) ltac:(lia)) as Mj.
  pose proof (Nat.mod_upper_bound k (nrow (nu_nodes g2)) ltac:(lia)) as Mk.
  assert (Qj : (j / nrow (nu_nodes g2) < nrow (nu_nodes g1))%nat) by (apply Nat.div_lt_upper_bound; lia).
  assert (Qk : (k / nrow (nu_nodes g2) < nrow (nu_nodes g1))%nat) by (apply Nat.div_lt_upper_bound; lia).
  rewrite Dj, Dk in E.
  rewrite (Nat.mul_comm (nrow (nu_nodes g2)) (j / _)), (Nat.mul_comm (nrow (nu_nodes g2)) (k / _)) in E.
  rewrite !Hnode in E by assumption.
  assert (EE : row (nu_nodes g1) (j / nrow (nu_nodes g2)) = row (nu_nodes g1) (k / nrow (nu_nodes g2)) /\
               row (nu_nodes g2) (j mod nrow (nu_nodes g2)) = row (nu_nodes g2) (k mod nrow (nu_nodes g2))).
  { split.
    - apply (f_equal (firstn (ncol (nu_nodes g1)))) in E. rewrite !firstn_app, !row_length, Nat.sub_diag in E.
      cbn [firstn] in E. rewrite !app_nil_r in E. rewrite !firstn_all2 in E by (rewrite row_length; lia). exact E.
    - apply (f_equal (skipn (ncol (nu_nodes g1)))) in E. rewrite !skipn_app, !row_length, Nat.sub_diag in E.
      cbn [skipn] in E. rewrite !skipn_all2 in E by (rewrite row_length; lia). exact E. }
  destruct EE as (Ea & Eb). apply D1 in Ea; [|assumption|assumption]. apply D2 in Eb; [|assumption|assumption].
  rewrite Dj, Dk, Ea, Eb. reflexivity.
Qed.

(** A rule over two non-uniform Cartesian grids. *)
Lemma cartesian_call : forall el pre ec a1 a2 g1 g2 n_x x k,
    linear_contract el -> cubic_contract pre ec -> k = Linear \/ k = Cubic ->
    nonuniform_grid a1 = Ok g1 -> nonuniform_grid a2 = Ok g2 ->
    distinct_nodes (GNonUniform g1) -> distinct_nodes (GNonUniform g2) ->
    nd_shape x = [nrow (nu_nodes g1); nrow (nu_nodes g2); n_x]%nat ->
    let exo := GNonUniform g1 in let endo := GNonUniform g2 in
    exists c, get_coefficients pre exo endo k x = Ok c /\
      forall i n, (i < nrow (nu_nodes g1))%nat -> (n < nrow (nu_nodes g2))%nat ->
        let v := values_at x n_x (i * nrow (nu_nodes g2) + n) in
        let ev_is := eval_is el ec exo endo k c in
        let ev_ms := eval_ms el ec exo endo k c in
        call2 ev_is ev_ms (Pts (P1 (node_of exo i))) (P1 (node_of endo n)) = Ok (P1 v) /\
        call2 ev_is ev_ms (Idx (IInt i)) (P1 (node_of endo n)) = Ok (P1 v).
Proof.
  intros el pre ec a1 a2 g1 g2 n_x x k Hel Hec Hk H1 H2 D1 D2 Hsh exo endo.
  destruct (nonuniform_add_ok a1 a2 g1 g2 H1 H2) as (g & G & A & Rr & _).
  destruct (nonuniform_sum_cartesian a1 a2 g1 g2 g H1 H2 G D1 D2) as (HG & _).
  pose proof (nonuniform_sum_node a1 a2 g1 g2 g H1 H2 G) as Hnode.
  set (dims := map (@length R) (a1 ++ a2)) in *.
  assert (Hd : grid_dims (GNonUniform g) = Some dims) by apply HG.
  assert (Hn : nrow (nu_nodes g) = prodn dims) by exact (proj1 (proj2 HG)).
  assert (Hpos : (0 < prodn dims)%nat).
  { destruct (nonuniform_grid_inv _ _ H1) as (_ & Q1 & _). destruct (nonuniform_grid_inv _ _ H2) as (_ & Q2 & _).
    apply prodn_pos. unfold dims. apply Forall_map. apply Forall_app. split; assumption. }
  assert (HC : exists c F, get_coefficients pre exo endo k x = Ok c /\
             (forall m s, length m = length s ->
                eval_ms el ec exo endo k c m s = Ok (map F (map (fun p => fst p ++ snd p) (combine m s)))) /\
             forall r, (r < nrow (nu_nodes g))%nat -> F (row (nu_nodes g) r) = values_at x n_x r).
  { unfold get_coefficients, eval_ms, exo, endo. cbn [grid_dims grid_add bind].
    rewrite G. cbn [bind]. rewrite Hd.
    assert (Er : reshape_last x dims = Ok {| nd_shape := dims ++ [n_x]; nd_data := nd_data x |}).
    { apply reshape_last_ok; [exact Hpos|]. rewrite Hsh. cbn [prodn]. rewrite <- Hn, Rr. lia. }
    rewrite Er. cbn [bind].
    destruct Hk as [-> | ->].
    - destruct (Hel _ dims n_x {| nd_shape := dims ++ [n_x]; nd_data := nd_data x |} HG eq_refl) as (F & F1 & F2).
      eexists. exists F. split; [reflexivity|]. split.
      + intros m s Hms. unfold concat_cols. rewrite Hms, Nat.eqb_refl. cbn [bind arr_coefs]. apply F1.
      + intros r Hr. exact (F2 r Hr).
    - destruct (Hec _ dims n_x {| nd_shape := dims ++ [n_x]; nd_data := nd_data x |} HG eq_refl) as (c' & Ec & F & F1 & F2).
      rewrite Ec. cbn [bind]. eexists. exists F. split; [reflexivity|]. split.
      + intros m s Hms. unfold concat_cols. rewrite Hms, Nat.eqb_refl. cbn [bind arr_coefs]. apply F1.
      + intros r Hr. exact (F2 r Hr). }
  destruct HC as (c & F & Ec & F1 & F2). exists c. split; [exact Ec|]. intros i n Hi Hlt. cbv zeta.
  assert (Hms : eval_ms el ec exo endo k c [node_of exo i] [node_of endo n]
                = Ok [values_at x n_x (i * nrow (nu_nodes g2) + n)]).
  { rewrite F1 by reflexivity. cbn [combine map fst snd]. unfold exo, endo. cbn [node_of].
    rewrite <- Hnode by assumption. rewrite F2; [reflexivity|]. rewrite Rr. nia. }
  split.
  - unfold call2. rewrite Hms. reflexivity.
  - unfold call2.
    assert (Eis : eval_is el ec exo endo k c (IInt i) [node_of endo n] = eval_ms el ec exo endo k c [node_of exo i] [node_of endo n]).
    { unfold eval_is, exo, endo. cbn [grid_dims grid_node node_of].
      destruct (Nat.ltb_spec i (nrow (nu_nodes g1))); [|lia]. destruct Hk as [-> | ->]; reflexivity. }
    rewrite Eis, Hms. reflexivity.
Qed.

(** Two uniform grids: the sum of the grids is wrong (C11), so is the rule. *)
Lemma uniform_cartesian_wrong :
    exists el g1 g2 x c, linear_contract el /\
      uniform_grid [0] [1] [2%nat] = Ok g1 /\ uniform_grid [2] [3] [2%nat] = Ok g2 /\
      nd_shape x = [2; 2; 1]%nat /\ (forall r, values_at x 1 r = [1]) /\
      (forall pre, get_coefficients pre (GUniform g1) (GUniform g2) Linear x = Ok c) /\
      forall ec, call2 (eval_is el ec (GUniform g1) (GUniform g2) Linear c) (eval_ms el ec (GUniform g1) (GUniform g2) Linear c)
            (Pts (P1 (node_of (GUniform g1) 0))) (P1 (node_of (GUniform g2) 0)) = Ok (P1 [0]).
Proof.
  destruct uniform_add_wrong as (g1 & g2 & g & E1 & E2 & E3 & _ & Hle).
  destruct (uniform_grid_spec [0] [1] [2%nat] ltac:(discriminate) eq_refl eq_refl ltac:(repeat constructor))
    as (g1' & ax1 & G1 & M1 & X1 & Nn1 & R1 & C1 & L1 & A1 & _).
  rewrite E1 in G1. injection G1 as <-.
  destruct (uniform_grid_spec [2] [3] [2%nat] ltac:(discriminate) eq_refl eq_refl ltac:(repeat constructor))
    as (g2' & ax2 & G2 & M2 & X2 & Nn2 & R2 & C2 & L2 & A2 & En2).
  rewrite E2 in G2. injection G2 as <-.
  assert (Hsum := E3). unfold uniform_add in Hsum. rewrite M1, X1, Nn1, Nn2 in Hsum. cbn [app] in Hsum.
  destruct (uniform_grid_spec [0; 0] [1; 1] [2; 2]%nat ltac:(discriminate) eq_refl eq_refl ltac:(repeat constructor))
    as (g' & ax & G & M & X & Nn & Rr & Cc & L & A & _).
  rewrite Hsum in G. injection G as <-.
  exists lookup_linear, g1, g2, {| nd_shape := [2; 2; 1]%nat; nd_data := fun _ => 1 |},
    (CArr {| nd_shape := [2; 2; 1]%nat; nd_data := fun _ => 1 |}).
  split; [exact lookup_contract|]. split; [exact E1|]. split; [exact E2|]. split; [reflexivity|].
  split; [reflexivity|]. split.
  - intros pre. unfold get_coefficients. cbn [grid_dims grid_add]. rewrite E3. cbn [bind grid_dims]. rewrite Nn. reflexivity.
  - intros ec. unfold call2, eval_ms. cbn [grid_dims grid_add]. rewrite E3. cbn [bind concat_cols length Nat.eqb combine map fst snd arr_coefs].
    unfold lookup_linear. cbn [grid_dims]. rewrite Nn. cbn [nd_shape removelast].
    destruct (list_eq_dec Nat.eq_dec [2; 2]%nat [2; 2]%nat) as [_|F]; [|contradiction F; reflexivity].
    cbn [map bind first_row]. unfold lookup_row. cbn [nd_shape last].
    assert (Hs : node_of (GUniform g2) 0 = [2]).
    { cbn [node_of]. unfold row. rewrite C2. cbn [length seq map]. f_equal.
      assert (Hv : valid_index (map (@length R) ax2) [0%nat]).
      { destruct ax2 as [|b [|? ?]]; simpl in L2; try lia. destruct (A2 0%nat ltac:(simpl; lia)) as ((La & _) & _).
        simpl in La. repeat constructor. lia. }
      specialize (En2 [0%nat] Hv 0%nat ltac:(simpl in L2; lia)).
      destruct (A2 0%nat ltac:(simpl; lia)) as (_ & H0). cbn [nth] in H0, En2.
      replace (rank (map (@length R) ax2) [0%nat]) with 0%nat in En2.
      - rewrite En2. exact H0.
      - destruct ax2 as [|b [|? ?]]; simpl in L2; try lia. reflexivity. }
    assert (Hnone : node_index (GUniform g) (node_of (GUniform g1) 0 ++ node_of (GUniform g2) 0) = None).
    { unfold node_index. destruct (find _ _) as [k|] eqn:Ef; [|reflexivity]. exfalso.
      apply find_some in Ef. destruct Ef as (Hin & Ht). apply in_seq in Hin. cbn [n_nodes] in Hin.
      destruct (list_eq_dec Req_EM_T (node_of (GUniform g) k) (node_of (GUniform g1) 0 ++ node_of (GUniform g2) 0)) as [Eq|]; [|discriminate].
      rewrite Hs in Eq. cbn [node_of] in Eq. unfold row in Eq. rewrite Cc, C1 in Eq. cbn [length seq map app] in Eq.
      injection Eq as _ Eq. specialize (Hle k ltac:(lia)). rewrite Eq in Hle. lra. }
    rewrite Hnone. reflexivity.
Qed.

(** ** Single points and lists of points *)
Lemma call1_rows : forall ev rows out r p,
    (exists F, forall pts, ev pts = Ok (map F pts)) ->
    call1 ev (P2 rows) = Ok (P2 out) -> nth_error rows r = Some p ->
    exists v, nth_error out r = Some v /\ call1 ev (P1 p) = Ok (P1 v).
Proof.
  intros ev rows out r p (F & HF) H Hr. unfold call1 in *. rewrite HF in H. cbn [bind] in H. injection H as <-.
  exists (F p). rewrite HF. cbn [map bind first_row]. split; [|reflexivity]. apply map_nth_error. exact Hr.
Qed.

Lemma call2_rows : forall ev_is ev_ms i rows out r p,
    (exists F, forall pts, ev_is i pts = Ok (map F pts)) ->
    call2 ev_is ev_ms (Idx i) (P2 rows) = Ok (P2 out) -> nth_error rows r = Some p ->
    exists v, nth_error out r = Some v /\ call2 ev_is ev_ms (Idx i) (P1 p) = Ok (P1 v).
Proof.
  intros ev_is ev_ms i rows out r p (F & HF) H Hr. unfold call2 in *. rewrite HF in H. cbn [bind] in H. injection H as <-.
  exists (F p). rewrite HF. cbn [map bind first_row]. split; [|reflexivity]. apply map_nth_error. exact Hr.
Qed.

(** A rule over two Cartesian grids cannot be evaluated at one exogenous point (or node) and
    several states. *)
Lemma cartesian_mixed_call : forall el ec exo endo k c rows g,
    (exists u, exo = GUniform u) \/ (exists u, exo = GNonUniform u) -> k = Linear \/ k = Cubic ->
    grid_add exo endo = Ok g -> length rows <> 1%nat ->
    (forall m, call2 (eval_is el ec exo endo k c) (eval_ms el ec exo endo k c) (Pts (P1 m)) (P2 rows) = Err ExcValue) /\
    (forall i, (i < n_nodes exo)%nat ->
       call2 (eval_is el ec exo endo k c) (eval_ms el ec exo endo k c) (Idx (IInt i)) (P2 rows) = Err ExcValue).
Proof.
  intros el ec exo endo k c rows g Hexo Hk Hadd Hl.
  assert (Hendo : exists dims, grid_dims endo = Some dims).
  { destruct Hexo as [(u & ->)|(u & ->)]; destruct endo; try discriminate; eexists; reflexivity. }
  destruct Hendo as (dims & Hd).
  assert (Hms : forall m, eval_ms el ec exo endo k c [m] rows = Err ExcValue).
  { intros m. unfold eval_ms. rewrite Hd, Hadd. unfold concat_cols. cbn [length].
    destruct (Nat.eqb_spec 1 (length rows)); [congruence|].
    destruct Hexo as [(u & ->)|(u & ->)]; destruct Hk as [-> | ->]; reflexivity. }
  split.
  - intros m. unfold call2. rewrite Hms. reflexivity.
  - intros i Hi. unfold call2.
    assert (E : exists m, eval_is el ec exo endo k c (IInt i) rows = eval_ms el ec exo endo k c [m] rows).
    { unfold eval_is. rewrite Hd. destruct Hexo as [(u & ->)|(u & ->)]; cbn [grid_node n_nodes] in *.
      - destruct (Nat.ltb_spec i (nrow (u_nodes u))); [|lia]. eexists. destruct Hk as [-> | ->]; reflexivity.
      - destruct (Nat.ltb_spec i (nrow (nu_nodes u))); [|lia]. eexists. destruct Hk as [-> | ->]; reflexivity. }
    destruct E as (m & E). rewrite E, Hms. reflexivity.
Qed.

(** An exogenous point written with integers is taken for an index. *)
Lemma integer_point_call : forall el ec nodes endo dims k c l s,
    grid_dims endo = Some dims -> k = Linear \/ k = Cubic ->
    call2 (eval_is el ec (GUnstructured nodes) endo k c) (eval_ms el ec (GUnstructured nodes) endo k c)
      (Idx (IArr l)) s = Err ExcType.
Proof.
  intros el ec nodes endo dims k c l s Hd Hk. unfold call2, eval_is. rewrite Hd.
  destruct s; destruct Hk as [-> | ->]; reflexivity.
Qed.

Lemma small_grid : exists g, uniform_grid [2] [3] [2%nat] = Ok g /\ cartesian_grid (GUniform g) [2%nat].
Proof.
  destruct (uniform_grid_spec [2] [3] [2%nat] ltac:(discriminate) eq_refl eq_refl ltac:(repeat constructor))
    as (g & ax & E & M & X & Nn & Rr & Cc & L & A & En).
  exists g. split; [exact E|]. split; [cbn [grid_dims]; rewrite Nn; reflexivity|]. split; [cbn [n_nodes]; rewrite Rr; reflexivity|].
  destruct ax as [|b [|? ?]]; simpl in L; try lia. destruct (A 0%nat ltac:(simpl; lia)) as ((La & Hax) & H0).
  cbn [nth] in *. change (nth 0 [2%nat] 0%nat) with 2%nat in *.
  assert (H1 : nth 1 b 0 = 3).
  { rewrite Hax by lia. change (2 - 1)%nat with 1%nat. change (INR 1) with 1. lra. }
  assert (Hnode : forall k, (k < 2)%nat -> mget (u_nodes g) k 0 = nth k b 0).
  { intros k Hk. specialize (En [k]). cbn [map] in En. rewrite La in En.
    specialize (En (Forall2_cons _ _ Hk (Forall2_nil _)) 0%nat ltac:(simpl; lia)). cbn [rank prodn nth] in En.
    rewrite Nat.mul_1_r, Nat.add_0_r in En. exact En. }
  intros j k Hj Hk Eq. cbn [n_nodes] in Hj, Hk. rewrite Rr in Hj, Hk. cbn [prodn Nat.mul] in Hj, Hk.
  cbn [node_of] in Eq. unfold row in Eq. rewrite Cc in Eq. cbn [length seq map] in Eq. injection Eq as Eq.
  rewrite !Hnode in Eq by lia.
  destruct j as [|[|j]]; destruct k as [|[|k]]; try lia; try reflexivity; exfalso; rewrite H0, H1 in Eq; lra.
Qed.

Lemma small_nonuniform : forall a b, a <> b ->
    exists g, nonuniform_grid [[a; b]] = Ok g /\ distinct_nodes (GNonUniform g) /\ nrow (nu_nodes g) = 2%nat.
Proof.
  intros a b Hab. eexists. split; [reflexivity|]. split; [|reflexivity].
  intros j k Hj Hk E. cbn in Hj, Hk.
  destruct j as [|[|j]]; destruct k as [|[|k]]; try lia; try reflexivity; exfalso; cbn in E; injection E as E;
    change (1 / (2 / 2))%nat with 1%nat in E; change (0 / (2 / 2))%nat with 0%nat in E; cbn in E; congruence.
Qed.

Lemma square_grid : exists g1 g2 g, nonuniform_grid [[1; 2]] = Ok g1 /\ nonuniform_grid [[3; 4]] = Ok g2 /\
    distinct_nodes (GNonUniform g1) /\ distinct_nodes (GNonUniform g2) /\
    nrow (nu_nodes g1) = 2%nat /\ nrow (nu_nodes g2) = 2%nat /\
    cartesian_grid (GNonUniform g) [2; 2]%nat.
Proof.
  destruct (small_nonuniform 1 2 ltac:(lra)) as (g1 & E1 & D1 & R1).
  destruct (small_nonuniform 3 4 ltac:(lra)) as (g2 & E2 & D2 & R2).
  destruct (nonuniform_add_ok _ _ g1 g2 E1 E2) as (g & G & _).
  destruct (nonuniform_sum_cartesian _ _ g1 g2 g E1 E2 G D1 D2) as (HG & _).
  exists g1, g2, g. repeat (split; [assumption|]). exact HG.
Qed.
