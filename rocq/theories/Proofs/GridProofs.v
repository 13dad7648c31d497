From Coq Require Import Reals List Arith Lia Lra.
From Verif.Base Require Import Prelude Arrays.
From Verif.Spec Require Import Product.
From Verif.Model Require Import Grids.
Import ListNotations.
Open Scope R_scope.

Lemma prodn_pos : forall l, Forall (fun d => 0 < d)%nat l -> (0 < prodn l)%nat.
Proof. induction 1; simpl; [lia|]. apply Nat.mul_pos_pos; assumption. Qed.

Lemma rank_lt : forall dims idx, valid_index dims idx -> (rank dims idx < prodn dims)%nat.
Proof.
  intros dims idx H. induction H as [|i d is ds Hi H IH]; simpl; [lia|]. nia.
Qed.

Lemma prodn_app : forall l1 l2, prodn (l1 ++ l2) = (prodn l1 * prodn l2)%nat.
Proof. induction l1 as [|a l1 IH]; intros l2; simpl; [lia|]. rewrite IH. lia. Qed.

(** Every row has exactly one index tuple. *)
Lemma rank_surj : forall dims r, (r < prodn dims)%nat ->
    exists idx, valid_index dims idx /\ rank dims idx = r.
Proof.
  induction dims as [|d ds IH]; intros r Hr; simpl in *.
  - exists []. split; [constructor|lia].
  - assert (Hp : (0 < prodn ds)%nat) by (destruct (prodn ds); lia).
    destruct (IH (r mod prodn ds)%nat) as (idx & Hv & Hrk); [apply Nat.mod_upper_bound; lia|].
    exists ((r / prodn ds)%nat :: idx). split.
    + constructor; [|exact Hv]. apply Nat.div_lt_upper_bound; lia.
    + simpl. rewrite Hrk. pose proof (Nat.div_mod r (prodn ds) ltac:(lia)). lia.
Qed.

Lemma rank_inj : forall dims i1 i2, valid_index dims i1 -> valid_index dims i2 ->
    rank dims i1 = rank dims i2 -> i1 = i2.
Proof.
  intros dims i1 i2 H1. revert i2. induction H1 as [|i d is ds Hi H IH]; intros i2 H2 E.
  - inversion H2; reflexivity.
  - inversion H2 as [|j d' js ds' Hj H2' E1 E2]; subst. simpl in E.
    pose proof (rank_lt _ _ H). pose proof (rank_lt _ _ H2').
    assert (i = j) by nia. subst. f_equal. apply IH; [assumption|lia].
Qed.

Section Cart.
  Variable A : Type.
  Variable dflt : A.
  Variable conv : A -> A.

  Lemma cartesian_into_spec : forall arrays D c out,
      Forall (fun a => 0 < length a)%nat arrays -> (c + length arrays <= D)%nat ->
      (forall idx, valid_index (map (@length A) arrays) idx -> forall k, (k < length arrays)%nat ->
         cartesian_into dflt conv D arrays c out (rank (map (@length A) arrays) idx) (c + k)%nat
         = conv (nth (nth k idx 0%nat) (nth k arrays []) dflt)) /\
      (forall r k, (k < c)%nat -> cartesian_into dflt conv D arrays c out r k = out r k) /\
      (forall r k, (prodn (map (@length A) arrays) <= r)%nat -> cartesian_into dflt conv D arrays c out r k = out r k).
  Proof.
    induction arrays as [|a rest IH]; intros D c out Hne HD.
    - split; [intros idx Hv k Hk; simpl in Hk; lia|]. split; reflexivity.
    - inversion Hne as [|? ? Ha Hrest]; subst. cbn [cartesian_into].
      set (n := prodn (map (@length A) (a :: rest))).
      set (m := (n / length a)%nat).
      assert (Hp : (0 < prodn (map (@length A) rest))%nat).
      { apply prodn_pos. rewrite Forall_map. exact Hrest. }
      assert (Hn : n = (length a * prodn (map (@length A) rest))%nat) by reflexivity.
      assert (Hm : m = prodn (map (@length A) rest)).
      { unfold m. rewrite Hn, Nat.mul_comm, Nat.div_mul by lia. reflexivity. }
      set (out1 := fun r k => if andb (Nat.ltb r n) (Nat.eqb k c) then conv (nth (r / m) a dflt) else out r k).
      assert (Hrank : forall i is, rank (map (@length A) (a :: rest)) (i :: is) = (i * m + rank (map (@length A) rest) is)%nat)
        by (intros; rewrite Hm; reflexivity).
      assert (Hout1c : forall i is, valid_index (map (@length A) (a :: rest)) (i :: is) ->
                out1 (i * m + rank (map (@length A) rest) is)%nat c = conv (nth i a dflt)).
      { intros i is Hv. inversion Hv as [|? ? ? ? Hi Hv']; subst. simpl in Hi.
        pose proof (rank_lt _ _ Hv'). unfold out1. rewrite Nat.eqb_refl.
        destruct (Nat.ltb_spec (i * m + rank (map (@length A) rest) is) n); [|nia]. cbn [andb].
        f_equal. f_equal. symmetry. apply Nat.div_unique with (rank (map (@length A) rest) is); lia. }
      destruct rest as [|b rest'].
      + split; [|split].
        * intros idx Hv k Hk. simpl in Hk. assert (k = 0%nat) as -> by lia. rewrite Nat.add_0_r.
          inversion Hv as [|i d is ds Hi Hv' E1 E2]; subst. rewrite Hrank.
          rewrite Hout1c by assumption. reflexivity.
        * intros r k Hk. unfold out1. destruct (Nat.eqb_spec k c); [lia|]. rewrite Bool.andb_false_r. reflexivity.
        * intros r k Hr. unfold out1. destruct (Nat.ltb_spec r n); [unfold n in *; lia|]. reflexivity.
      + set (rest := b :: rest') in *.
        destruct (IH D (S c) out1 Hrest ltac:(cbn [length] in *; lia)) as (I1 & I2 & I3).
        set (out2 := cartesian_into dflt conv D rest (S c) out1) in *.
        set (body := fun j0 o => let j := S j0 in
            fun r k => if andb (andb (Nat.leb (j * m) r) (Nat.ltb r ((j + 1) * m)))
                               (andb (Nat.ltb c k) (Nat.ltb k D))
                       then o (r - j * m)%nat k else (o : nat -> nat -> A) r k).
        (* loop invariant *)
        assert (HL : forall t, (t <= length a - 1)%nat ->
           (forall r k, for_range t body out2 r k =
              if andb (Nat.ltb r (S t * m)) (andb (Nat.ltb c k) (Nat.ltb k D))
              then out2 (r mod m)%nat k else out2 r k)).
        { induction t as [|t IHt]; intros Ht r k.
          - cbn [for_range]. destruct (Nat.ltb_spec r (1 * m)); cbn [andb]; [|reflexivity].
            rewrite Nat.mod_small by lia. destruct (andb _ _); reflexivity.
          - cbn [for_range]. unfold body at 1. cbv zeta.
            specialize (IHt ltac:(lia)).
            destruct (andb (Nat.ltb c k) (Nat.ltb k D)) eqn:Ek.
            + rewrite !Bool.andb_true_r.
              destruct (Nat.leb_spec (S t * m) r), (Nat.ltb_spec r ((S t + 1) * m)); cbn [andb].
              * rewrite IHt, Ek, Bool.andb_true_r.
                destruct (Nat.ltb_spec (r - S t * m) (S t * m)); [|nia].
                destruct (Nat.ltb_spec r (S (S t) * m)); [|nia].
                f_equal. replace r with ((r - S t * m) + S t * m)%nat at 2 by lia.
                rewrite Nat.mod_add by lia. reflexivity.
              * rewrite IHt, Ek, Bool.andb_true_r.
                destruct (Nat.ltb_spec r (S t * m)); [lia|].
                destruct (Nat.ltb_spec r (S (S t) * m)); [nia|]. reflexivity.
              * rewrite IHt, Ek, Bool.andb_true_r.
                destruct (Nat.ltb_spec r (S t * m)); [|lia].
                destruct (Nat.ltb_spec r (S (S t) * m)); [|nia]. reflexivity.
              * rewrite IHt, Ek, Bool.andb_true_r.
                destruct (Nat.ltb_spec r (S t * m)); [|lia].
                destruct (Nat.ltb_spec r (S (S t) * m)); [|nia]. reflexivity.
            + rewrite !Bool.andb_false_r. rewrite IHt, Ek, !Bool.andb_false_r. reflexivity. }
        specialize (HL (length a - 1)%nat ltac:(lia)).
        replace (S (length a - 1)) with (length a) in HL by lia.
        assert (Hnm : (length a * m = n)%nat) by (rewrite Hn, Hm; reflexivity).
        rewrite Hnm in HL.
        change (match rest with [] => out1 | _ :: _ => for_range (length a - 1) body out2 end)
          with (for_range (length a - 1) body out2).
        split; [|split].
        * intros idx Hv k Hk. inversion Hv as [|i d is ds Hi Hv' E1 E2]; subst. rewrite Hrank.
          assert (Hrl : (rank (map (@length A) rest) is < m)%nat) by (rewrite Hm; apply rank_lt; exact Hv').
          simpl in Hi.
          assert (Hlt : (i * m + rank (map (@length A) rest) is < n)%nat) by (rewrite <- Hnm; clear - Hi Hrl; nia).
          rewrite HL. destruct (Nat.ltb_spec (i * m + rank (map (@length A) rest) is) n); [|lia]. cbn [andb].
          destruct k as [|k].
          -- rewrite Nat.add_0_r, Nat.ltb_irrefl. cbn [andb]. unfold out2. rewrite I2 by lia.
             rewrite Hout1c by assumption. reflexivity.
          -- destruct (Nat.ltb_spec c (c + S k)); [|lia].
             destruct (Nat.ltb_spec (c + S k) D); [|cbn [length] in *; lia]. cbn [andb].
             rewrite Nat.add_comm, Nat.mod_add, Nat.mod_small by lia.
             replace (c + S k)%nat with (S c + k)%nat by lia.
             rewrite I1 by (try assumption; simpl in Hk; unfold rest; simpl; lia). reflexivity.
        * intros r k Hk. rewrite HL. destruct (Nat.ltb_spec c k); [lia|]. rewrite Bool.andb_false_r.
          rewrite I2 by lia. unfold out1. destruct (Nat.eqb_spec k c); [lia|]. rewrite Bool.andb_false_r. reflexivity.
        * intros r k Hr. rewrite HL. destruct (Nat.ltb_spec r n); [unfold n in *; lia|]. cbn [andb].
          rewrite I3 by (rewrite <- Hm; nia). unfold out1. destruct (Nat.ltb_spec r n); [lia|]. reflexivity.
  Qed.
End Cart.

Lemma cartesian_correct : forall arrays,
    arrays <> [] -> Forall (fun a => 0 < length a)%nat arrays ->
    exists p, cartesian false arrays = Ok p /\ nrow p = prodn (map (@length R) arrays) /\
              ncol p = length arrays /\ enumerates 0 arrays (mget p).
Proof.
  intros arrays Hne Hpos. destruct arrays as [|a rest]; [contradiction|].
  eexists. split; [reflexivity|]. split; [reflexivity|]. split; [reflexivity|].
  intros idx Hv k Hk. cbn [mget].
  pose proof (proj1 (cartesian_into_spec R 0 (fun x => x) (a :: rest) (length (a :: rest)) 0 (fun _ _ => 0) Hpos (Nat.le_refl _))
                idx Hv k Hk) as H. exact H.
Qed.

(** Integer first axis: values of the other axes are truncated. *)
Lemma Int_part_half : Int_part (3 / 2) = 1%Z.
Proof. unfold Int_part. rewrite <- (tech_up (3 / 2) 2) by (simpl; lra). reflexivity. Qed.

Lemma cartesian_int_first :
    exists p, cartesian true [[0; 1]; [3 / 2; 2]] = Ok p /\ mget p 0%nat 1%nat = 1 /\
                 ~ enumerates 0 [[0; 1]; [3 / 2; 2]] (mget p).
Proof.
  eexists. split; [reflexivity|]. cbn [mget].
  assert (E : cartesian_into 0 trunc 2 [[0; 1]; [3 / 2; 2]] 0 (fun _ _ => 0) 0%nat 1%nat = 1).
  { pose proof (proj1 (cartesian_into_spec R 0 trunc [[0; 1]; [3 / 2; 2]] 2 0 (fun _ _ => 0)
      ltac:(repeat constructor; simpl; lia) ltac:(simpl; lia)) [0%nat; 0%nat]
      ltac:(repeat constructor; simpl; lia) 1%nat ltac:(simpl; lia)) as H.
    change (rank (map (length (A:=R)) [[0; 1]; [3 / 2; 2]]) [0%nat; 0%nat]) with 0%nat in H.
    change (0 + 1)%nat with 1%nat in H. rewrite H. cbn [nth]. unfold trunc. destruct (Rle_dec 0 (3 / 2)); [|lra].
    rewrite Int_part_half. reflexivity. }
  split; [exact E|]. intros H.
  specialize (H [0%nat; 0%nat] ltac:(repeat constructor; simpl; lia) 1%nat ltac:(simpl; lia)).
  change (rank (map (length (A:=R)) [[0; 1]; [3 / 2; 2]]) [0%nat; 0%nat]) with 0%nat in H.
  cbn [length] in H. cbn [nth] in H. rewrite E in H. lra.
Qed.

(** ** linspace, mlinspace and uniform grids *)
Lemma linspace_length : forall a b n, length (linspace_list a b n) = n.
Proof. intros. unfold linspace_list. rewrite map_length, seq_length. reflexivity. Qed.

Lemma linspace_nth : forall a b n i, (i < n)%nat -> nth i (linspace_list a b n) 0 = linspace a b n i.
Proof.
  intros a b n i Hi. unfold linspace_list.
  rewrite (nth_indep _ 0 (linspace a b n 0%nat)) by (rewrite map_length, seq_length; exact Hi).
  rewrite (map_nth (linspace a b n)). rewrite seq_nth by exact Hi. reflexivity.
Qed.

Lemma linspace_axis : forall a b n, axis_of a b n (linspace_list a b n).
Proof.
  intros. split; [apply linspace_length|]. intros i Hi Hn. rewrite linspace_nth by exact Hi.
  unfold linspace. destruct (Nat.eqb_spec n 1); [lia|]. rewrite minus_INR by lia. simpl (INR 1). unfold Rdiv. ring.
Qed.

Lemma linspace_list_first : forall a b n, (1 <= n)%nat -> nth 0 (linspace_list a b n) 0 = a.
Proof. intros. rewrite linspace_nth by lia. apply linspace_first; lia. Qed.

Lemma linspace_list_last : forall a b n, (2 <= n)%nat -> nth (n - 1) (linspace_list a b n) 0 = b.
Proof. intros. rewrite linspace_nth by lia. apply linspace_last; lia. Qed.

Lemma linspace_list_bounds : forall a b n i, (i < n)%nat -> a <= b ->
    a <= nth i (linspace_list a b n) 0 <= b.
Proof. intros a b n i Hi Hab. rewrite linspace_nth by exact Hi. apply linspace_bounds; assumption. Qed.

Lemma linspaces_ok : forall a b n, length b = length a -> length n = length a ->
    exists axes, linspaces a b n = Ok axes /\ map (@length R) axes = n /\
      forall k, (k < length a)%nat -> nth k axes [] = linspace_list (nth k a 0) (nth k b 0) (nth k n 0%nat).
Proof.
  induction a as [|x a IH]; intros b n Hb Hn.
  - exists []. split; [reflexivity|]. split; [destruct n; [reflexivity|discriminate]|]. intros k Hk. simpl in Hk. lia.
  - destruct b as [|y b]; [discriminate|]. destruct n as [|o n]; [discriminate|]. simpl in Hb, Hn.
    destruct (IH b n ltac:(lia) ltac:(lia)) as (axes & E & Hl & Hk).
    exists (linspace_list x y o :: axes). cbn [linspaces]. rewrite E. split; [reflexivity|].
    split; [simpl; rewrite linspace_length, Hl; reflexivity|].
    intros [|k] Hk'; [reflexivity|]. simpl. apply Hk. simpl in Hk'. lia.
Qed.

Lemma linspaces_short : forall a b n, (length b < length a)%nat \/ (length n < length a)%nat ->
    linspaces a b n = Err ExcIndex.
Proof.
  induction a as [|x a IH]; intros b n H; [simpl in H; lia|].
  destruct b as [|y b], n as [|o n]; try reflexivity. simpl in H.
  cbn [linspaces]. rewrite IH by lia. reflexivity.
Qed.

Lemma uniform_grid_ok : forall min max n,
    min <> [] -> length max = length min -> length n = length min -> Forall (fun k => 1 <= k)%nat n ->
    exists g axes, uniform_grid min max n = Ok g /\
      u_min g = min /\ u_max g = max /\ u_n g = n /\
      nrow (u_nodes g) = prodn n /\ ncol (u_nodes g) = length min /\
      map (@length R) axes = n /\
      (forall k, (k < length min)%nat -> nth k axes [] = linspace_list (nth k min 0) (nth k max 0) (nth k n 0%nat)) /\
      enumerates 0 axes (mget (u_nodes g)).
Proof.
  intros min max n Hne Hmax Hn Hpos.
  destruct (linspaces_ok min max n Hmax Hn) as (axes & E & Hl & Hk).
  assert (Hlen : length axes = length min) by (rewrite <- Hn, <- Hl, map_length; reflexivity).
  destruct (cartesian_correct axes) as (p & Ep & H1 & H2 & H3).
  - intros ->. destruct min; [contradiction|discriminate].
  - apply Forall_map with (f := @length R) (P := fun k => (0 < k)%nat). rewrite Hl.
    eapply Forall_impl; [|exact Hpos]. intros; simpl in *; lia.
  - exists {| u_min := min; u_max := max; u_n := n; u_nodes := p |}, axes.
    unfold uniform_grid, mlinspace. rewrite E. cbn [bind]. rewrite Ep. cbn [bind].
    destruct n as [|n0 n']; [destruct min; [contradiction|discriminate]|].
    split; [reflexivity|]. split; [reflexivity|]. split; [reflexivity|]. split; [reflexivity|].
    cbn [u_nodes]. rewrite H1, H2, Hl, Hlen.
    split; [reflexivity|]. split; [reflexivity|]. split; [reflexivity|]. split; [exact Hk|exact H3].
Qed.

Lemma uniform_grid_spec : forall min max n,
    min <> [] -> length max = length min -> length n = length min -> Forall (fun k => 1 <= k)%nat n ->
    exists g axes, uniform_grid min max n = Ok g /\
      u_min g = min /\ u_max g = max /\ u_n g = n /\
      nrow (u_nodes g) = prodn n /\ ncol (u_nodes g) = length min /\ length axes = length min /\
      (forall k, (k < length min)%nat ->
         axis_of (nth k min 0) (nth k max 0) (nth k n 0%nat) (nth k axes []) /\
         nth 0 (nth k axes []) 0 = nth k min 0) /\
      enumerates 0 axes (mget (u_nodes g)).
Proof.
  intros min max n Hne Hmax Hn Hpos.
  destruct (uniform_grid_ok min max n Hne Hmax Hn Hpos) as (g & axes & E & H0a & H0b & H0c & H1 & H2 & H3 & H4 & H5).
  exists g, axes. repeat (split; [assumption|]).
  split; [rewrite <- Hn, <- H3, map_length; reflexivity|]. split; [|assumption].
  intros k Hk. rewrite H4 by assumption. split; [apply linspace_axis|].
  apply linspace_list_first. rewrite Forall_forall in Hpos. apply Hpos. apply nth_In. lia.
Qed.

Lemma nth_index_lt : forall dims idx k, valid_index dims idx -> (k < length dims)%nat ->
    (nth k idx 0 < nth k dims 0)%nat.
Proof.
  intros dims idx k H. revert k. induction H as [|i d is ds Hi H IH]; intros k Hk; simpl in Hk; [lia|].
  destruct k; simpl; [exact Hi|]. apply IH. lia.
Qed.

Lemma valid_zero : forall dims, Forall (fun k => 1 <= k)%nat dims ->
    valid_index dims (repeat 0%nat (length dims)) /\ rank dims (repeat 0%nat (length dims)) = 0%nat.
Proof.
  intros dims H. induction H as [|d ds Hd H [IH1 IH2]]; simpl; [split; [constructor|reflexivity]|].
  split; [constructor; [lia|exact IH1]|]. rewrite IH2. reflexivity.
Qed.

Lemma valid_last : forall dims, Forall (fun k => 1 <= k)%nat dims ->
    valid_index dims (map (fun d => d - 1)%nat dims) /\
    rank dims (map (fun d => d - 1)%nat dims) = (prodn dims - 1)%nat.
Proof.
  intros dims H. induction H as [|d ds Hd H [IH1 IH2]]; simpl; [split; [constructor|reflexivity]|].
  split; [constructor; [lia|exact IH1]|]. rewrite IH2.
  assert (1 <= prodn ds)%nat by (apply prodn_pos; eapply Forall_impl; [|exact H]; simpl; intros; lia).
  nia.
Qed.

Lemma uniform_grid_box : forall min max n g,
    min <> [] -> length max = length min -> length n = length min -> Forall (fun k => 1 <= k)%nat n ->
    uniform_grid min max n = Ok g ->
    (forall k, (k < length min)%nat -> nth k min 0 <= nth k max 0) ->
    (forall r k, (r < nrow (u_nodes g))%nat -> (k < length min)%nat ->
       nth k min 0 <= mget (u_nodes g) r k <= nth k max 0) /\
    (forall k, (k < length min)%nat -> mget (u_nodes g) 0%nat k = nth k min 0) /\
    (Forall (fun k => 2 <= k)%nat n ->
     forall k, (k < length min)%nat -> mget (u_nodes g) (nrow (u_nodes g) - 1)%nat k = nth k max 0).
Proof.
  intros min max n g Hne Hmax Hn Hpos Eg Hle.
  destruct (uniform_grid_ok min max n Hne Hmax Hn Hpos) as (g' & axes & E & _ & _ & _ & H1 & H2 & H3 & H4 & H5).
  rewrite Eg in E. injection E as <-.
  assert (Hlen : length axes = length min) by (rewrite <- Hn, <- H3, map_length; reflexivity).
  assert (Hkn : forall k, (k < length min)%nat -> (1 <= nth k n 0)%nat).
  { intros k Hk. rewrite Forall_forall in Hpos. apply Hpos. apply nth_In. lia. }
  unfold enumerates in H5. rewrite H3, Hlen in H5. rewrite H1.
  split; [|split].
  - intros r k Hr Hk. destruct (rank_surj n r Hr) as (idx & Hv & <-).
    rewrite H5 by assumption. rewrite H4 by assumption.
    apply linspace_list_bounds; [|apply Hle; assumption]. apply nth_index_lt; [assumption|lia].
  - intros k Hk. destruct (valid_zero n Hpos) as [Hv Hr]. rewrite <- Hr.
    rewrite H5 by assumption. rewrite H4 by assumption.
    replace (nth k (repeat 0%nat (length n)) 0%nat) with 0%nat by (symmetry; apply nth_repeat).
    apply linspace_list_first. apply Hkn; assumption.
  - intros Hpos2 k Hk. destruct (valid_last n Hpos) as [Hv Hr]. rewrite <- Hr.
    rewrite H5 by assumption. rewrite H4 by assumption.
    rewrite (nth_indep _ 0%nat ((fun d => d - 1)%nat 0%nat)) by (rewrite map_length; lia).
    rewrite (map_nth (fun d => d - 1)%nat). apply linspace_list_last.
    rewrite Forall_forall in Hpos2. apply Hpos2. apply nth_In. lia.
Qed.

Lemma uniform_grid_short : forall min max n,
    (length max < length min)%nat \/ (length n < length min)%nat \/ min = [] \/ n = [] ->
    uniform_grid min max n = Err ExcIndex.
Proof.
  intros min max n H. unfold uniform_grid. destruct n as [|n0 n']; [reflexivity|].
  unfold mlinspace. destruct min as [|x min']; [reflexivity|].
  rewrite linspaces_short; [reflexivity|]. destruct H as [H|[H|[H|H]]]; try discriminate; auto.
Qed.

(** ** Adding grids *)
Lemma uniform_add_same : forall g1 g2,
    u_min g1 <> [] -> length (u_max g1) = length (u_min g1) ->
    length (u_n g1) = length (u_min g1) -> length (u_n g2) = length (u_min g2) ->
    u_min g1 = u_min g2 -> u_max g1 = u_max g2 ->
    uniform_add g1 g2 = uniform_grid (u_min g1 ++ u_min g2) (u_max g1 ++ u_max g2) (u_n g1 ++ u_n g2).
Proof. intros g1 g2 _ _ _ _ E1 E2. unfold uniform_add. rewrite <- E1, <- E2. reflexivity. Qed.

Lemma uniform_add_wrong :
    exists g1 g2 g, uniform_grid [0] [1] [2%nat] = Ok g1 /\ uniform_grid [2] [3] [2%nat] = Ok g2 /\
      uniform_add g1 g2 = Ok g /\ u_max g = [1; 1] /\
      (forall r, (r < nrow (u_nodes g))%nat -> mget (u_nodes g) r 1%nat <= 1).
Proof.
  eexists. eexists. eexists. split; [reflexivity|]. split; [reflexivity|]. split; [reflexivity|].
  split; [reflexivity|]. intros r Hr.
  match type of Hr with (r < nrow (u_nodes ?G))%nat => pose (g := G) end.
  assert (Eg : uniform_grid [0; 0] [1; 1] [2%nat; 2%nat] = Ok g) by reflexivity.
  destruct (uniform_grid_box [0; 0] [1; 1] [2%nat; 2%nat] g ltac:(discriminate) eq_refl eq_refl
    ltac:(repeat constructor) Eg) as (H & _ & _).
  - intros [|[|k]] Hk; simpl in *; try lra; lia.
  - specialize (H r 1%nat Hr ltac:(simpl; lia)). simpl nth in H. fold g. lra.
Qed.

Lemma nonuniform_grid_ok : forall axes, axes <> [] -> Forall (fun a => 0 < length a)%nat axes ->
    exists g, nonuniform_grid axes = Ok g /\ nu_axes g = axes /\
      nrow (nu_nodes g) = prodn (map (@length R) axes) /\ ncol (nu_nodes g) = length axes /\
      enumerates 0 axes (mget (nu_nodes g)).
Proof.
  intros axes Hne Hpos. destruct (cartesian_correct axes Hne Hpos) as (p & E & H1 & H2 & H3).
  exists {| nu_axes := axes; nu_nodes := p |}. unfold nonuniform_grid.
  assert (Hex : existsb (fun a : list R => Nat.eqb (length a) 0) axes = false).
  { clear - Hpos. induction Hpos as [|a l Ha H IH]; [reflexivity|]. cbn [existsb]. rewrite IH.
    destruct (Nat.eqb_spec (length a) 0); [lia|reflexivity]. }
  rewrite Hex, E. repeat split; assumption.
Qed.

Lemma nonuniform_grid_inv : forall axes g, nonuniform_grid axes = Ok g ->
    axes <> [] /\ Forall (fun a => 0 < length a)%nat axes /\ nu_axes g = axes.
Proof.
  intros axes g H. unfold nonuniform_grid in H.
  destruct (existsb _ axes) eqn:E; [discriminate|].
  destruct axes as [|a l]; [discriminate|]. split; [discriminate|].
  split.
  - apply Forall_forall. intros x Hx.
    destruct (Nat.eqb_spec (length x) 0) as [Hz|Hz]; [|lia].
    assert (existsb (fun a : list R => Nat.eqb (length a) 0) (a :: l) = true).
    { apply existsb_exists. exists x. split; [assumption|]. rewrite Hz. reflexivity. }
    congruence.
  - cbn [cartesian bind] in H. injection H as <-. reflexivity.
Qed.

Lemma nonuniform_add_ok : forall a1 a2 g1 g2,
    nonuniform_grid a1 = Ok g1 -> nonuniform_grid a2 = Ok g2 ->
    exists g, nonuniform_add g1 g2 = Ok g /\ nu_axes g = a1 ++ a2 /\
      nrow (nu_nodes g) = (nrow (nu_nodes g1) * nrow (nu_nodes g2))%nat /\
      enumerates 0 (a1 ++ a2) (mget (nu_nodes g)).
Proof.
  intros a1 a2 g1 g2 H1 H2.
  destruct (nonuniform_grid_inv _ _ H1) as (N1 & P1 & E1).
  destruct (nonuniform_grid_inv _ _ H2) as (N2 & P2 & E2).
  destruct (nonuniform_grid_ok a1 N1 P1) as (g1' & G1 & _ & R1 & _).
  destruct (nonuniform_grid_ok a2 N2 P2) as (g2' & G2 & _ & R2 & _).
  rewrite H1 in G1. injection G1 as <-. rewrite H2 in G2. injection G2 as <-.
  unfold nonuniform_add. rewrite E1, E2.
  destruct (nonuniform_grid_ok (a1 ++ a2)) as (g & G & A & Rr & _ & En).
  - destruct a1; [contradiction|discriminate].
  - apply Forall_app. split; assumption.
  - exists g. split; [exact G|]. split; [exact A|]. split; [|exact En].
    rewrite Rr, R1, R2, map_app, prodn_app. reflexivity.
Qed.

Lemma cat_empty : forall g, cat_grids GEmpty g = Ok g /\ grid_add GEmpty g = Ok g.
Proof. intros; split; reflexivity. Qed.

Lemma cat_cartesian_raises : forall g1 g2,
    (exists u, g1 = GUniform u) \/ (exists u, g1 = GNonUniform u) ->
    (exists u, g2 = GUniform u) \/ (exists u, g2 = GNonUniform u) ->
    cat_grids g1 g2 = Err ExcType.
Proof. intros g1 g2 [[u ->]|[u ->]] [[v ->]|[v ->]]; reflexivity. Qed.

Lemma rank_unique : forall dims r, (r < prodn dims)%nat ->
    exists idx, valid_index dims idx /\ rank dims idx = r /\
      forall idx', valid_index dims idx' -> rank dims idx' = r -> idx' = idx.
Proof.
  intros dims r Hr. destruct (rank_surj dims r Hr) as (idx & Hv & E).
  exists idx. split; [exact Hv|]. split; [exact E|]. intros idx' Hv' E'.
  apply (rank_inj dims); [assumption|assumption|congruence].
Qed.

Lemma mlinspace_spec : forall min max n,
    min <> [] -> length max = length min -> length n = length min -> Forall (fun k => 1 <= k)%nat n ->
    exists p axes, mlinspace min max n = Ok p /\ nrow p = prodn n /\ ncol p = length min /\
      length axes = length min /\
      (forall k, (k < length min)%nat ->
         axis_of (nth k min 0) (nth k max 0) (nth k n 0%nat) (nth k axes []) /\
         nth 0 (nth k axes []) 0 = nth k min 0) /\
      enumerates 0 axes (mget p).
Proof.
  intros min max n Hne Hmax Hn Hpos.
  destruct (uniform_grid_spec min max n Hne Hmax Hn Hpos) as (g & axes & E & _ & _ & _ & H).
  exists (u_nodes g), axes. split; [|exact H].
  unfold uniform_grid in E. destruct n as [|n0 n']; [discriminate|].
  destruct (mlinspace min max (n0 :: n')) as [p|e]; [|discriminate].
  cbn [bind] in E. injection E as <-. reflexivity.
Qed.

Lemma uniform_add_same_bounds : forall min max n1 n2 g1 g2,
    min <> [] -> length max = length min -> length n1 = length min -> length n2 = length min ->
    Forall (fun k => 1 <= k)%nat n1 -> Forall (fun k => 1 <= k)%nat n2 ->
    uniform_grid min max n1 = Ok g1 -> uniform_grid min max n2 = Ok g2 ->
    exists g axes, uniform_add g1 g2 = Ok g /\
      nrow (u_nodes g) = (nrow (u_nodes g1) * nrow (u_nodes g2))%nat /\
      u_min g = min ++ min /\ u_max g = max ++ max /\ u_n g = n1 ++ n2 /\
      length axes = (2 * length min)%nat /\
      (forall k, (k < 2 * length min)%nat ->
         axis_of (nth k (min ++ min) 0) (nth k (max ++ max) 0) (nth k (n1 ++ n2) 0%nat) (nth k axes []) /\
         nth 0 (nth k axes []) 0 = nth k (min ++ min) 0) /\
      enumerates 0 axes (mget (u_nodes g)).
Proof.
  intros min max n1 n2 g1 g2 Hne Hmax Hn1 Hn2 P1 P2 E1 E2.
  destruct (uniform_grid_spec min max n1 Hne Hmax Hn1 P1) as (g1' & a1 & G1 & A1 & B1 & C1 & R1 & _).
  destruct (uniform_grid_spec min max n2 Hne Hmax Hn2 P2) as (g2' & a2 & G2 & A2 & B2 & C2 & R2 & _).
  rewrite E1 in G1. injection G1 as <-. rewrite E2 in G2. injection G2 as <-.
  destruct (uniform_grid_spec (min ++ min) (max ++ max) (n1 ++ n2)) as (g & axes & E & A & B & C & Rr & _ & L & K & En).
  - destruct min; [contradiction|discriminate].
  - rewrite !app_length; lia.
  - rewrite !app_length; lia.
  - apply Forall_app; split; assumption.
  - rewrite app_length in L, K. replace (length min + length min)%nat with (2 * length min)%nat in * by lia.
    exists g, axes. unfold uniform_add. rewrite A1, B1, C1, C2. split; [exact E|].
    split; [rewrite Rr, R1, R2, prodn_app; reflexivity|]. repeat (split; [assumption|]). assumption.
Qed.
