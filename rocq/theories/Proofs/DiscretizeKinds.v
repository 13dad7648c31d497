(** Kinds of discretisations. *)
From Coq Require Import String Reals List Arith Bool Lia Lra.
From Verif.Base Require Import Prelude Sums Arrays Dict.
From Verif.Spec Require Import Law Markov Discretize.
From Verif.Model Require Import Discretization Grids Distributions Processes GdpDiscretization Discretize.
From Verif.Proofs Require Import LawProofs GdpProofs.
Import ListNotations.
Open Scope R_scope.

Section Ind.
  Variable P : proc -> Prop.
  Hypothesis H1 : forall mu, P (PConstant mu).
  Hypothesis H2 : forall d, P (PLaw d).
  Hypothesis H3 : forall pi, P (PBernouilli pi).
  Hypothesis H4 : forall ppf gh, P (PUni ppf gh).
  Hypothesis H5 : forall n, P (PNormal n).
  Hypothesis H6 : forall l, Forall P l -> P (PLaws l).
  Hypothesis H7 : forall i ds, P i -> Forall (fun kv => P (snd kv)) ds -> P (PMixture i ds).
  Hypothesis H8 : forall c, P (PChain c).
  Hypothesis H9 : forall a b c, P (PAr1 a b c).
  Hypothesis H10 : forall p, P (PVar1 p).
  Hypothesis H11 : forall l, Forall P l -> P (PProcs l).
  Hypothesis H12 : forall b, P (PBare b).
  Fixpoint proc_ind2 (x : proc) : P x :=
    match x with
    | PConstant mu => H1 mu
    | PLaw d => H2 d
    | PBernouilli pi => H3 pi
    | PUni ppf gh => H4 ppf gh
    | PNormal n => H5 n
    | PLaws l => H6 l ((fix go l : Forall P l := match l with [] => Forall_nil P | y :: l' => Forall_cons y (proc_ind2 y) (go l') end) l)
    | PMixture i ds => H7 i ds (proc_ind2 i)
        ((fix go (l : list (string * proc)) : Forall (fun kv => P (snd kv)) l :=
            match l with [] => Forall_nil _ | kv :: l' => Forall_cons kv (proc_ind2 (snd kv)) (go l') end) ds)
    | PChain c => H8 c
    | PAr1 a b c => H9 a b c
    | PVar1 p => H10 p
    | PProcs l => H11 l ((fix go l : Forall P l := match l with [] => Forall_nil P | y :: l' => Forall_cons y (proc_ind2 y) (go l') end) l)
    | PBare b => H12 b
    end.
End Ind.

(** ** Lists of calls *)
Lemma bind_ok : forall A B (r : res A) (f : A -> res B) b, bind r f = Ok b -> exists a, r = Ok a /\ f a = Ok b.
Proof. intros A B [a|e] f b H; [exists a; split; [reflexivity|exact H]|discriminate]. Qed.

Lemma all_ok_forall : forall A B (g : A -> res B) l os, all_ok (map g l) = Ok os -> Forall2 (fun y o => g y = Ok o) l os.
Proof.
  intros A B g l. induction l as [|y l IH]; intros os H; cbn [map all_ok] in H.
  - injection H as <-. constructor.
  - apply bind_ok in H. destruct H as (o & E & H). apply bind_ok in H. destruct H as (os' & E' & H). injection H as <-.
    constructor; [exact E|exact (IH _ E')].
Qed.

Lemma forall_all_ok : forall A B (g : A -> res B) l os, Forall2 (fun y o => g y = Ok o) l os -> all_ok (map g l) = Ok os.
Proof. induction 1 as [|y o l os E H IH]; [reflexivity|]. cbn [map all_ok]. rewrite E, IH. reflexivity. Qed.

Lemma Forall2_weaken : forall A B (P Q : A -> B -> Prop) l m, (forall a b, P a b -> Q a b) -> Forall2 P l m -> Forall2 Q l m.
Proof. intros A B P Q l m H. induction 1; constructor; auto. Qed.

Lemma map2_forall : forall A B C (f : A -> B -> res C) l ks os, map2_ok f l ks = Ok os -> length ks = length l ->
    Forall2 (fun y o => exists k, In k ks /\ f y k = Ok o) l os.
Proof.
  intros A B C f l. induction l as [|y l IH]; intros ks os H HL; destruct ks as [|k ks]; try discriminate; cbn [map2_ok] in H.
  - injection H as <-. constructor.
  - apply bind_ok in H. destruct H as (o & E & H). apply bind_ok in H. destruct H as (os' & E' & H). injection H as <-.
    constructor; [exists k; split; [left; reflexivity|exact E]|].
    specialize (IH ks os' E' ltac:(simpl in HL; lia)). eapply Forall2_weaken; [|exact IH].
    intros a b (k' & Hk & Ek). exists k'. split; [right; exact Hk|exact Ek].
Qed.

Lemma kwargs_list_length : forall k n ks, kwargs_list k n = Ok ks -> length ks = n.
Proof.
  intros k n ks H. unfold kwargs_list in H. destruct (kw_options k) as [k'|l].
  - injection H as <-. apply repeat_length.
  - destruct (Nat.eqb_spec (length l) n); [|discriminate]. injection H as <-. assumption.
Qed.

Lemma to_is_eq : forall s s', to_is (ToStr s) s' = true -> s = s'.
Proof. intros s s' H. apply String.eqb_eq. exact H. Qed.

Section Kinds.
  Variable herm : nat -> res ((nat -> R) * (nat -> R)).
  Variable chol_np chol_sp : mat -> res mat.
  Notation discretize := (discretize herm chol_np chol_sp).

  Lemma var1_gdp_never : forall p N g, var1_discretize_gdp herm chol_np p N = Ok g -> False.
  Proof. intros p N g H. destruct (var1_never herm chol_np p N) as (e & E). congruence. Qed.

  Ltac to_cases t H := repeat match type of H with context [to_is ?u ?v] => destruct (to_is u v) eqn:? end.

  (** What each call returns is of the kind [s]; nothing is returned by an autoregressive process only. *)
  Definition right_kind (x : proc) (s : string) (o : out) : Prop :=
    kind_of o = Some s \/ (kind_of o = None /\ autoregressive x /\ s <> "mc"%string /\ s <> "gdp"%string).

  Lemma law_kind : forall d s o, law_discretize d (ToStr s) = Ok o -> kind_of o = Some s /\ (s = "iid" \/ s = "mc")%string.
  Proof.
    intros d s o H. unfold law_discretize in H.
    destruct (to_is (ToStr s) "iid") eqn:E; [apply to_is_eq in E; subst; injection H as <-; split; [reflexivity|auto]|].
    destruct (to_is (ToStr s) "mc") eqn:E2; [apply to_is_eq in E2; subst|discriminate].
    apply bind_ok in H. destruct H as (c & _ & H). injection H as <-. split; [reflexivity|auto].
  Qed.

  Lemma univariate_kind : forall ppf gh t n m mp d, univariate_discretize ppf gh t n m mp = Ok d ->
      (t = ToIid /\ kind_of (out_of d) = Some "iid"%string) \/ (t = ToMc /\ kind_of (out_of d) = Some "mc"%string).
  Proof.
    intros ppf gh t n m mp d H. destruct t; cbn [univariate_discretize] in H; [| |discriminate].
    - left. split; [reflexivity|]. destruct m; [| |discriminate]; apply bind_ok in H; destruct H as (a & _ & H);
        injection H as <-; reflexivity.
    - right. split; [reflexivity|]. apply bind_ok in H; destruct H as (a & _ & H). apply bind_ok in H; destruct H as (b & _ & H).
      injection H as <-; reflexivity.
  Qed.

  Lemma uni_kind : forall ppf gh s k o, uni_discretize herm chol_np ppf gh (ToStr s) k = Ok o ->
      kind_of o = Some s /\ (s = "iid" \/ s = "mc")%string.
  Proof.
    intros ppf gh s k o H. unfold uni_discretize in H.
    set (rule := fun orders => match gh with Some (sigma, mu) => unormal_gh_orders herm chol_np sigma mu orders | None => Err ExcAttribute end) in *.
    assert (G : forall n d, univariate_discretize ppf (fun n => rule [n])
                 (if to_is (ToStr s) "iid" then ToIid else if to_is (ToStr s) "mc" then ToMc else ToGdp) n (kw_method k) (kw_mass_point k) = Ok d ->
                 kind_of (out_of d) = Some s /\ (s = "iid" \/ s = "mc")%string).
    { intros n d E. destruct (univariate_kind _ _ _ _ _ _ _ E) as [(T & Ki)|(T & Ki)]; rewrite Ki; clear Ki E.
      - destruct (to_is (ToStr s) "iid") eqn:E; [apply to_is_eq in E; subst; auto|].
        destruct (to_is (ToStr s) "mc"); discriminate.
      - destruct (to_is (ToStr s) "iid"); [discriminate|]. destruct (to_is (ToStr s) "mc") eqn:E; [apply to_is_eq in E; subst; auto|discriminate]. }
    destruct (kw_N k) as [[n|l]|].
    - apply bind_ok in H. destruct H as (d & E & H). injection H as <-. exact (G _ _ E).
    - destruct (to_is (ToStr s) "iid") eqn:E.
      + apply to_is_eq in E. subst s. destruct (kw_method k); [| |discriminate].
        * apply bind_ok in H. destruct H as (d & _ & H). injection H as <-. auto.
        * destruct (kw_mass_point k); discriminate.
      + apply bind_ok in H. destruct H as (d & E' & H). injection H as <-. exact (G _ _ E').
    - apply bind_ok in H. destruct H as (d & E & H). injection H as <-. exact (G _ _ E).
  Qed.

  Lemma normal_kind : forall n s k o, normal_discretize_to herm chol_np n (ToStr s) k = Ok o ->
      kind_of o = Some s /\ (s = "iid" \/ s = "mc")%string.
  Proof.
    intros n s k o H. unfold normal_discretize_to in H.
    destruct (to_is (ToStr s) "iid") eqn:E.
    { apply to_is_eq in E. subst. apply bind_ok in H. destruct H as (d & _ & H). injection H as <-. auto. }
    destruct (to_is (ToStr s) "mc") eqn:E2; [|discriminate].
    apply to_is_eq in E2. subst. apply bind_ok in H. destruct H as (d & _ & H). injection H as <-. auto.
  Qed.

  Lemma var1_kind : forall p s k o, var1_discretize herm chol_np chol_sp p (ToStr s) k = Ok o ->
      (kind_of o = Some s /\ s = "mc"%string) \/ (o = ONone /\ s <> "mc"%string /\ s <> "gdp"%string).
  Proof.
    intros p s k o H. unfold var1_discretize in H.
    destruct (to_is (ToStr s) "mc") eqn:E.
    { apply to_is_eq in E. subst s. destruct (negb (only_N k)); [discriminate|].
      destruct (kw_N k) as [[n|l]|]; try (apply bind_ok in H; destruct H as (c & _ & H); injection H as <-; auto).
      destruct (scalar_check (v_rho p)); [|discriminate]. apply bind_ok in H. destruct H as (c & _ & H). discriminate. }
    destruct (to_is (ToStr s) "gdp") eqn:E2.
    { destruct (negb (only_N k)); [discriminate|]. apply bind_ok in H. destruct H as (g & Eg & _). destruct (var1_gdp_never _ _ _ Eg). }
    injection H as <-. right. split; [reflexivity|]. split; intros ->; cbn in *; discriminate.
  Qed.

  Lemma ar1_kind : forall a b c s k o, ar1_discretize herm chol_np chol_sp a b c (ToStr s) k = Ok o ->
      (kind_of o = Some s /\ s = "mc"%string) \/ (o = ONone /\ s <> "mc"%string /\ s <> "gdp"%string).
  Proof.
    intros a b c s k o H. unfold ar1_discretize in H. destruct (to_is (ToStr s) "gdp").
    { destruct (negb (only_N k)); [discriminate|]. apply bind_ok in H. destruct H as (g & Eg & _).
      rewrite (ar1_never herm chol_np) in Eg. discriminate. }
    exact (var1_kind _ _ _ _ H).
  Qed.

  Lemma as_law_ok : forall o d, as_law o = Ok d -> o = OIid d.
  Proof. intros [d0|c|g|] d H; try discriminate. injection H as <-. reflexivity. Qed.
  Lemma as_chain_ok : forall o d, as_chain o = Ok d -> o = OChain d.
  Proof. intros [d0|c|g|] d H; try discriminate. injection H as <-. reflexivity. Qed.

  Lemma combine_kind : forall s os o, combine_all (ToStr s) os = Ok o -> kind_of o = Some s /\ (s = "iid" \/ s = "mc")%string.
  Proof.
    intros s os o H. unfold combine_all in H. destruct (to_is (ToStr s) "iid") eqn:E.
    { apply to_is_eq in E. subst. apply bind_ok in H. destruct H as (ds & _ & H). apply bind_ok in H. destruct H as (d & _ & H).
      injection H as <-. auto. }
    destruct (to_is (ToStr s) "mc") eqn:E2.
    { apply to_is_eq in E2. subst. apply bind_ok in H. destruct H as (ds & _ & H). apply bind_ok in H. destruct H as (d & _ & H).
      injection H as <-. auto. }
    destruct (to_is (ToStr s) "gdp"); discriminate.
  Qed.

  Lemma discretize_kind : forall x s k o, discretize x (ToStr s) k = Ok o ->
      (kind_of o = Some s /\ (s = "iid" \/ s = "mc" \/ (s = "gdp" /\ markov x))%string) \/
      (o = ONone /\ autoregressive x /\ s <> "mc"%string /\ s <> "gdp"%string).
  Proof.
    intros x. induction x as [mu|d|pi|ppf gh|n|l IH|i ds IHi IH|c|a b c|p|l IH|b] using proc_ind2; intros s k o H;
      cbn [Discretize.discretize given] in H.
    - left. unfold constant_discretize in H. destruct (to_is (ToStr s) "iid") eqn:E.
      { apply to_is_eq in E. subst. apply bind_ok in H. destruct H as (d & _ & H). injection H as <-. auto. }
      destruct (to_is (ToStr s) "mc") eqn:E2; [|discriminate]. apply to_is_eq in E2. subst.
      destruct (kw_N k) as [[m|l]|]; try discriminate; injection H as <-; auto.
    - destruct (only_to k); [|discriminate]. apply law_kind in H. tauto.
    - destruct (only_to k); [|discriminate]. apply bind_ok in H. destruct H as (d & _ & H). apply law_kind in H. tauto.
    - destruct (only_uni k); [|discriminate]. apply uni_kind in H. tauto.
    - destruct (only_N k); [|discriminate]. apply normal_kind in H. tauto.
    - destruct (only_to k); [|discriminate]. apply bind_ok in H. destruct H as (os & E & H).
      apply bind_ok in H. destruct H as (ds & E2 & H). apply bind_ok in H. destruct H as (d & E3 & H). injection H as <-.
      apply all_ok_forall in E. apply all_ok_forall in E2.
      destruct E as [|y o' l' os' Ey E]; [inversion E2; subst; discriminate|].
      inversion E2 as [|? d0 ? ? E0]; subst. apply as_law_ok in E0. subst o'.
      inversion IH as [|? ? IHy _]; subst. left.
      destruct (IHy _ _ _ Ey) as [(Ki & _)|(Ki & _)]; [|discriminate]. cbn in Ki. injection Ki as <-. auto.
    - destruct (only_to k); [|discriminate]. destruct (to_is (ToStr s) "iid") eqn:E.
      { apply to_is_eq in E. subst. apply bind_ok in H. destruct H as (d & _ & H). injection H as <-. auto. }
      destruct (to_is (ToStr s) "mc") eqn:E2; [|discriminate]. apply to_is_eq in E2. subst.
      apply bind_ok in H. destruct H as (d & _ & H). apply law_kind in H. tauto.
    - destruct (only_to k); [|discriminate]. unfold chain_discretize in H. left.
      destruct (to_is (ToStr s) "gdp") eqn:E; [apply to_is_eq in E; subst; injection H as <-; cbn; auto|].
      destruct (to_is (ToStr s) "mc") eqn:E2; [apply to_is_eq in E2; subst; injection H as <-; cbn; auto|discriminate].
    - apply ar1_kind in H. destruct H as [(A & B)|(A & B)]; [left; auto|right; cbn; auto].
    - apply var1_kind in H. destruct H as [(A & B)|(A & B)]; [left; auto|right; cbn; auto].
    - destruct (only_options k); [|discriminate]. apply bind_ok in H. destruct H as (ks & Ek & H).
      apply bind_ok in H. destruct H as (os & E & H). cbn [chosen] in H. apply combine_kind in H. tauto.
    - discriminate.
  Qed.

  Lemma kind_asked : forall x s k o, discretize x (ToStr s) k = Ok o -> right_kind x s o.
  Proof.
    intros x s k o H. destruct (discretize_kind _ _ _ _ H) as [(A & _)|(-> & A)]; [left; exact A|right; split; [reflexivity|exact A]].
  Qed.

  Lemma grids_of_chains : forall x k o, discretize x (ToStr "gdp") k = Ok o -> exists c, x = PChain c /\ o = OGdp (mc_to_gdp c).
  Proof.
    intros x k o H. destruct (discretize_kind _ _ _ _ H) as [(A & [B|[B|(_ & B)]])|(_ & _ & _ & B)]; try discriminate; [|congruence].
    destruct x; try destruct B. exists c. split; [reflexivity|]. cbn [Discretize.discretize given] in H.
    destruct (only_to k); [|discriminate]. cbn in H. injection H as <-. reflexivity.
  Qed.

  Lemma unknown_kind : forall x s k o, discretize x (ToStr s) k = Ok o ->
      s <> "iid"%string -> s <> "mc"%string -> s <> "gdp"%string -> o = ONone /\ autoregressive x.
  Proof.
    intros x s k o H A B C. destruct (discretize_kind _ _ _ _ H) as [(_ & [D|[D|(D & _)]])|(D & E & _)]; tauto.
  Qed.

  Lemma silent : forall s, s <> "mc"%string -> s <> "gdp"%string -> forall x k, autoregressive x -> discretize x (ToStr s) k = Ok ONone.
  Proof.
    intros s H1 H2 x k Hx.
    assert (E1 : to_is (ToStr s) "mc" = false) by (apply String.eqb_neq; exact H1).
    assert (E2 : to_is (ToStr s) "gdp" = false) by (apply String.eqb_neq; exact H2).
    destruct x; try destruct Hx; cbn [Discretize.discretize given]; unfold ar1_discretize, var1_discretize; rewrite E1, E2; reflexivity.
  Qed.

  Lemma laws_no_chain : forall l k o, discretize (PLaws l) (ToStr "mc") k <> Ok o.
  Proof.
    intros l k o H. cbn [Discretize.discretize given] in H.
    destruct (only_to k); [|discriminate]. apply bind_ok in H. destruct H as (os & E & H).
    apply bind_ok in H. destruct H as (ds & E2 & H). apply bind_ok in H. destruct H as (d & E3 & H).
    apply all_ok_forall in E. apply all_ok_forall in E2.
    destruct E as [|y o' l' os' Ey E]; [inversion E2; subst; discriminate|].
    inversion E2 as [|? d0 ? ? E0]; subst. apply as_law_ok in E0. subst o'.
    destruct (kind_asked _ _ _ _ Ey) as [Ki|(_ & _ & F & _)]; [discriminate|congruence].
  Qed.

  Lemma laws_attribute : forall l k, only_to k = true -> l <> [] ->
      (forall y, In y l -> exists c, discretize y (ToStr "mc") no_kw = Ok (OChain c)) ->
      discretize (PLaws l) (ToStr "mc") k = Err ExcAttribute.
  Proof.
    intros l k Hk Hl H. cbn [Discretize.discretize given]. rewrite Hk.
    assert (G : exists cs, all_ok (map (fun y => discretize y (ToStr "mc") no_kw) l) = Ok (map OChain cs) /\ length cs = length l).
    { clear Hl. induction l as [|y l IH]; [exists []; split; reflexivity|].
      destruct (H y (or_introl eq_refl)) as (c & Ec). destruct IH as (cs & Ecs & Hcs); [intros z Hz; apply H; right; exact Hz|].
      exists (c :: cs). cbn [map all_ok]. rewrite Ec, Ecs. split; [reflexivity|]. simpl. lia. }
    destruct G as (cs & -> & HL). cbn [bind]. destruct cs as [|c cs]; [destruct l; [congruence|discriminate]|]. reflexivity.
  Qed.

  (** ** The default kind *)
  Lemma product_target : forall l,
      ((exists y, In y l /\ (markov y \/ autoregressive y)) -> forall k, discretize (PProcs l) ToOmitted k = discretize (PProcs l) (ToStr "mc") k) /\
      ((forall y, In y l -> independent y) -> forall k, discretize (PProcs l) ToOmitted k = discretize (PProcs l) (ToStr "iid") k) /\
      ((forall y, In y l -> ~ markov y /\ ~ autoregressive y) -> ~ (forall y, In y l -> independent y) ->
         forall k, exists e, discretize (PProcs l) ToOmitted k = Err e).
  Proof.
    intros l.
    assert (E1 : existsb markov_or_continuous l = true <-> exists y, In y l /\ (markov y \/ autoregressive y)).
    { rewrite existsb_exists. split; intros (y & Hy & H); exists y; (split; [exact Hy|]); destruct y; cbn in *; try discriminate; try tauto. }
    assert (E2 : forallb iid_process_class l = true <-> forall y, In y l -> independent y).
    { rewrite forallb_forall. split; intros H y Hy; specialize (H y Hy); destruct y; cbn in *; try discriminate; try tauto; assumption. }
    split; [|split].
    - intros H k. apply E1 in H. cbn [Discretize.discretize]. unfold chosen. rewrite H. reflexivity.
    - intros H k. assert (F : existsb markov_or_continuous l = false).
      { apply not_true_is_false. intros F. apply E1 in F. destruct F as (y & Hy & F). specialize (H y Hy). destruct y; cbn in *; tauto. }
      apply E2 in H. cbn [Discretize.discretize]. unfold chosen. rewrite F, H. reflexivity.
    - intros H1 H2 k. assert (F : existsb markov_or_continuous l = false).
      { apply not_true_is_false. intros F. apply E1 in F. destruct F as (y & Hy & F). specialize (H1 y Hy). tauto. }
      assert (F2 : forallb iid_process_class l = false) by (apply not_true_is_false; intros F2; apply H2, E2; exact F2).
      destruct (discretize (PProcs l) ToOmitted k) as [o|e] eqn:E; [exfalso|exists e; reflexivity].
      assert (E' : discretize (PProcs l) (ToStr "gdp") k = Ok o).
      { rewrite <- E. cbn [Discretize.discretize]. unfold chosen. rewrite F, F2. reflexivity. }
      destruct (grids_of_chains _ _ _ E') as (c & X & _). discriminate.
  Qed.

  Lemma defaults : forall x k,
      match x with
      | PConstant _ => exists e, discretize x ToOmitted k = Err e
      | PChain _ | PAr1 _ _ _ | PVar1 _ => discretize x ToOmitted k = discretize x (ToStr "mc") k
      | PProcs _ => True
      | _ => discretize x ToOmitted k = discretize x (ToStr "iid") k
      end.
  Proof. intros [mu|d|pi|ppf gh|n|l|i ds|c|a b c|p|l|b] k; try reflexivity; try exact I. eexists. reflexivity. Qed.

  (** Keywords no method knows. *)
  Lemma unknown_keyword : forall x to N m mp o, (forall mu, x <> PConstant mu) -> ~ autoregressive x -> (forall b, x <> PBare b) ->
      discretize x to (Kw N m mp o true) = Err ExcType.
  Proof.
    intros x to N m mp o H1 H2 H3.
    destruct x; cbn [Discretize.discretize only_to only_uni only_N only_options]; rewrite ?orb_true_r; cbn [negb]; try reflexivity.
    - destruct (H1 mu eq_refl).
    - destruct H2; exact I.
    - destruct H2; exact I.
    - destruct (H3 is_iid eq_refl).
  Qed.
End Kinds.
