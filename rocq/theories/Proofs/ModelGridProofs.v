(** The grid of a model. *)
From Coq Require Import String Ascii Reals List Arith Bool Lia Lra.
From Verif.Base Require Import Prelude Dict Strings Arrays.
From Verif.Spec Require Import Product ModelGrid.
From Verif.Model Require Import Grids ModelObject ModelGrid.
From Verif.Proofs Require Import GridProofs.
Import ListNotations.

Lemma regular_uniform : forall (d : dict (R * R)) orders,
  d <> [] -> length orders = length d -> Forall (fun k => 1 <= k)%nat orders ->
  exists g, uniform_grid (domain_min d) (domain_max d) orders = Ok g /\ regular_grid d orders g.
Proof.
  intros d orders H1 H2 H3.
  assert (L1 : length (domain_min d) = length d) by (unfold domain_min; apply map_length).
  assert (L2 : length (domain_max d) = length d) by (unfold domain_max; apply map_length).
  destruct (uniform_grid_spec (domain_min d) (domain_max d) orders) as (g & axes & E & _ & _ & _ & N & C & L & A & F).
  - destruct d; [congruence|discriminate].
  - congruence.
  - congruence.
  - exact H3.
  - exists g. split; [exact E|]. split; [exact N|]. split; [congruence|]. exists axes. split; [congruence|].
    split; [|exact F]. intros k name a b D.
    assert (K : (k < length d)%nat) by (apply nth_error_Some; congruence).
    destruct (A k) as (A1 & A2); [congruence|].
    assert (M1 : nth k (domain_min d) 0%R = a).
    { apply nth_error_nth. unfold domain_min. rewrite (map_nth_error _ _ _ D). reflexivity. }
    assert (M2 : nth k (domain_max d) 0%R = b).
    { apply nth_error_nth. unfold domain_max. rewrite (map_nth_error _ _ _ D). reflexivity. }
    rewrite M1, M2 in A1. rewrite M1 in A2. auto.
Qed.

Section Data.
  Variable eval_orders : ynode -> res (list nat).
  Variable eval_mu : ynode -> res nat.
  Variable eval_axis : ynode -> res (list R).
  Notation endo_grid := (endo_grid eval_orders eval_mu eval_axis).

  Lemma at_path_options : forall data g, at_path data ["options"; "grid"]%string = Some g ->
    exists t l o, data = YMap t l /\ dget l "options" = Some o /\ exists t2 l2, o = YMap t2 l2 /\ dget l2 "grid" = Some g.
  Proof.
    intros data g H. cbn [at_path] in H.
    destruct data as [| |t l]; try discriminate. destruct (dget l "options") as [o|] eqn:O; [|discriminate].
    destruct o as [| |t2 l2]; try discriminate. destruct (dget l2 "grid") as [g'|] eqn:G; [|discriminate].
    exists t, l, (YMap t2 l2). repeat split; eauto. exists t2, l2. split; congruence.
  Qed.

  (** Everything but the choice of the kind of grid. *)
  Lemma endo_grid_unfold : forall data d g, at_path data ["options"; "grid"]%string = Some g ->
    endo_grid data (Ok (Some d)) =
      (let k := lower (strip_bang (ytag g)) in
       if (String.eqb k "cartesian" || String.eqb k "cartesiangrid")%bool then
         bind (get_address eval_orders data ["options:grid:n"; "options:grid:orders"]%string) (fun oo =>
         bind (uniform_grid (domain_min d) (domain_max d) (match oo with Some l => l | None => repeat 20%nat (length (domain_min d)) end))
           (fun g => Ok (EUniform g)))
       else if (String.eqb k "nonuniformcartesian" || String.eqb k "nonuniformcartesiangrid")%bool then
         match g with
         | YSeq _ l => bind (eval_axes eval_axis l) (fun axes => bind (nonuniform_grid axes) (fun g => Ok (ENonUniform g)))
         | _ => Err ExcType
         end
       else if (String.eqb k "smolyak" || String.eqb k "smolyakgrid")%bool then
         bind (get_address eval_mu data ["options:grid:mu"]%string) (fun om =>
         Ok (ESmolyak (domain_min d) (domain_max d) (match om with Some m => m | None => 2%nat end)))
       else Err (ExcGeneric "Unknown grid type.")).
  Proof.
    intros data d g H. destruct (at_path_options data g H) as (t & l & o & -> & O & t2 & l2 & -> & G).
    unfold ModelGrid.endo_grid. cbn [bind yget]. rewrite O. cbn [bind yget]. rewrite G. cbn [bind get_type]. reflexivity.
  Qed.

  Lemma descend_grid : forall data t l key,
    at_path data ["options"; "grid"]%string = Some (YMap t l) ->
    descend data ["options"; "grid"; key]%string = Ok (at_path data ["options"; "grid"; key]%string).
  Proof.
    intros data t l key H. destruct (at_path_options data _ H) as (t1 & l1 & o & -> & O & t2 & l2 & -> & G).
    cbn [descend yget bind at_path]. rewrite O. cbn [descend yget bind at_path]. rewrite G.
    cbn [descend yget bind at_path]. destruct (dget l key); reflexivity.
  Qed.

  Lemma orders_address : forall data t l dim orders,
    at_path data ["options"; "grid"]%string = Some (YMap t l) -> orders_of eval_orders data dim orders ->
    exists oo, get_address eval_orders data ["options:grid:n"; "options:grid:orders"]%string = Ok oo /\
      match oo with Some l => l | None => repeat 20%nat dim end = orders.
  Proof.
    intros data t l dim orders H O. unfold get_address, get_all, get_address1.
    change (split_char ":"%char "options:grid:n") with ["options"; "grid"; "n"]%string.
    change (split_char ":"%char "options:grid:orders") with ["options"; "grid"; "orders"]%string.
    rewrite !(descend_grid data t l _ H). cbn [bind].
    unfold orders_of in O.
    destruct (at_path data ["options"; "grid"; "n"]%string) as [x|];
      destruct (at_path data ["options"; "grid"; "orders"]%string) as [y|].
    - destruct O as (O1 & o & O2). rewrite O1, O2. cbn [bind hd_error]. eauto.
    - rewrite O. cbn [bind hd_error]. eauto.
    - rewrite O. cbn [bind hd_error]. eauto.
    - cbn [bind hd_error]. eauto.
  Qed.

  Theorem cartesian_grid : forall data d t l orders,
    at_path data ["options"; "grid"]%string = Some (YMap t l) ->
    In t ["!Cartesian"; "!CartesianGrid"; "!cartesian"; "!cartesiangrid"]%string ->
    d <> [] -> orders_of eval_orders data (length d) orders ->
    length orders = length d -> Forall (fun k => 1 <= k)%nat orders ->
    exists g, endo_grid data (Ok (Some d)) = Ok (EUniform g) /\ regular_grid d orders g.
  Proof.
    intros data d t l orders H T D O L P. pose proof (endo_grid_unfold data d _ H) as U. cbv zeta in U.
    assert (K : (String.eqb (lower (strip_bang t)) "cartesian" || String.eqb (lower (strip_bang t)) "cartesiangrid")%bool = true).
    { simpl in T. destruct T as [<-|[<-|[<-|[<-|[]]]]]; reflexivity. }
    change (ytag (YMap t l)) with t in U. rewrite K in U.
    replace (length d) with (length (domain_min d)) in O by (unfold domain_min; apply map_length).
    destruct (orders_address data t l _ orders H O) as (oo & E & X). rewrite E in U. cbn [bind] in U. rewrite X in U.
    destruct (regular_uniform d orders D L P) as (g & G & R). rewrite G in U. exists g. auto.
  Qed.

  Theorem smolyak_grid : forall data d t l,
    at_path data ["options"; "grid"]%string = Some (YMap t l) ->
    In t ["!Smolyak"; "!SmolyakGrid"; "!smolyak"; "!smolyakgrid"]%string ->
    match at_path data ["options"; "grid"; "mu"]%string with
    | Some x => forall mu, eval_mu x = Ok mu -> endo_grid data (Ok (Some d)) = Ok (ESmolyak (domain_min d) (domain_max d) mu)
    | None => endo_grid data (Ok (Some d)) = Ok (ESmolyak (domain_min d) (domain_max d) 2%nat)
    end.
  Proof.
    intros data d t l H T. pose proof (endo_grid_unfold data d _ H) as U. cbv zeta in U. change (ytag (YMap t l)) with t in U.
    assert (K : (String.eqb (lower (strip_bang t)) "cartesian" || String.eqb (lower (strip_bang t)) "cartesiangrid")%bool = false /\
                (String.eqb (lower (strip_bang t)) "nonuniformcartesian" || String.eqb (lower (strip_bang t)) "nonuniformcartesiangrid")%bool = false /\
                (String.eqb (lower (strip_bang t)) "smolyak" || String.eqb (lower (strip_bang t)) "smolyakgrid")%bool = true).
    { simpl in T. destruct T as [<-|[<-|[<-|[<-|[]]]]]; repeat split; reflexivity. }
    destruct K as (K1 & K2 & K3). rewrite K1, K2, K3 in U. unfold get_address, get_all, get_address1 in U.
    change (split_char ":"%char "options:grid:mu") with ["options"; "grid"; "mu"]%string in U.
    rewrite (descend_grid data t l _ H) in U. cbn [bind] in U.
    destruct (at_path data ["options"; "grid"; "mu"]%string) as [x|].
    - intros mu E. rewrite E in U. exact U.
    - exact U.
  Qed.

  Theorem smolyak_discretized : forall data d t l x mu,
    at_path data ["options"; "grid"]%string = Some (YMap t l) ->
    In t ["!Smolyak"; "!SmolyakGrid"; "!smolyak"; "!smolyakgrid"]%string ->
    at_path data ["options"; "grid"; "mu"]%string = Some x -> eval_mu x = Ok mu ->
    discretize_grid eval_orders eval_mu eval_axis data (Ok (Some d)) None = Ok (ESmolyak (domain_min d) (domain_max d) mu).
  Proof.
    intros data d t l x mu H1 H2 H3 H4. generalize (smolyak_grid data d t l H1 H2). rewrite H3. intros H. exact (H mu H4).
  Qed.

  Theorem nonuniform_grid_of_model : forall data d t l axes g,
    at_path data ["options"; "grid"]%string = Some (YSeq t l) ->
    In t ["!NonUniformCartesian"; "!NonUniformCartesianGrid"; "!nonuniformcartesian"]%string ->
    length axes = length l -> (forall k x, nth_error l k = Some x -> eval_axis x = Ok (nth k axes [])) ->
    nonuniform_grid axes = Ok g ->
    endo_grid data (Ok (Some d)) = Ok (ENonUniform g).
  Proof.
    intros data d t l axes g H T L A G. rewrite (endo_grid_unfold data d _ H). cbv zeta. change (ytag (YSeq t l)) with t.
    assert (K : (String.eqb (lower (strip_bang t)) "cartesian" || String.eqb (lower (strip_bang t)) "cartesiangrid")%bool = false /\
                (String.eqb (lower (strip_bang t)) "nonuniformcartesian" || String.eqb (lower (strip_bang t)) "nonuniformcartesiangrid")%bool = true).
    { simpl in T. destruct T as [<-|[<-|[<-|[]]]]; split; reflexivity. }
    destruct K as (-> & ->).
    assert (E : eval_axes eval_axis l = Ok axes).
    { clear - L A. revert axes L A. induction l as [|x l IH]; intros [|a axes] L A; simpl in L; try discriminate; [reflexivity|].
      cbn [eval_axes]. rewrite (A 0%nat x eq_refl). cbn [bind nth].
      rewrite (IH axes); [reflexivity|congruence|]. intros k y E. apply (A (S k) y E). }
    rewrite E. cbn [bind]. rewrite G. reflexivity.
  Qed.

  (** A section that is not tagged is refused, whatever it contains. *)
  Theorem untagged_refused : forall data d l, at_path data ["options"; "grid"]%string = Some (YMap map_tag l) ->
    endo_grid data (Ok (Some d)) = Err (ExcGeneric "Unknown grid type.").
  Proof. intros data d l H. rewrite (endo_grid_unfold data d _ H). reflexivity. Qed.

  (** Without the section: AttributeError, whatever options:grid_type says. *)
  Theorem missing_grid : forall tag l d, at_path (YMap tag l) ["options"; "grid"]%string = None ->
    endo_grid (YMap tag l) (Ok (Some d)) = Err ExcAttribute.
  Proof.
    intros tag l d H. unfold ModelGrid.endo_grid. cbn [bind yget]. cbn [at_path] in H.
    destruct (dget l "options") as [o|]; [|reflexivity]. cbn [bind].
    destruct o as [| |t2 l2]; try reflexivity. cbn [yget]. destruct (dget l2 "grid"); [discriminate|reflexivity].
  Qed.

  (** Grids asked for with an argument. *)
  Theorem discretize_n : forall data d n,
    d <> [] -> length n = length d -> Forall (fun k => 1 <= k)%nat n ->
    exists g, discretize_grid eval_orders eval_mu eval_axis data (Ok (Some d)) (Some (Some n)) = Ok (EUniform g) /\ regular_grid d n g.
  Proof.
    intros data d n H1 H2 H3. destruct (regular_uniform d n H1 H2 H3) as (g & E & R).
    exists g. unfold discretize_grid, domain_discretize. cbn [bind]. rewrite E. auto.
  Qed.
  Theorem discretize_default_n : forall data d, d <> [] ->
    exists g, discretize_grid eval_orders eval_mu eval_axis data (Ok (Some d)) (Some None) = Ok (EUniform g) /\
      regular_grid d (repeat 10%nat (length d)) g.
  Proof.
    intros data d H. destruct (regular_uniform d (repeat 10%nat (length d)) H) as (g & E & R).
    - apply repeat_length.
    - apply Forall_forall. intros k I. apply repeat_spec in I. subst. lia.
    - exists g. unfold discretize_grid, domain_discretize. cbn [bind].
      replace (length (domain_min d)) with (length d) by (unfold domain_min; rewrite map_length; reflexivity).
      rewrite E. auto.
  Qed.
  Theorem discretize_from_options : forall data dom,
    discretize_grid eval_orders eval_mu eval_axis data dom None = endo_grid data dom.
  Proof. reflexivity. Qed.
End Data.

(** The columns of the grid and the declared states: states k and b, a domain section that gives b first.  The
    columns of the grid are those of the section, so the first state k, whose interval is [0, 1], is given
    nodes from 5 to 6. *)
Definition two_states : ynode :=
  YMap map_tag [("options", YMap map_tag [("grid", YMap "!Cartesian" [("n", YScalar "" "2")])])]%string.
Lemma swapped_columns : exists (sec : section R R) sec' dom g,
  dget sec "k"%string = Some (BNum 0%R, BNum 1%R) /\ dget sec "b"%string = Some (BNum 5%R, BNum 6%R) /\
  get_domain (fun (_ : unit) e => Ok e) false ["k"; "b"]%string (None, None) (Ok tt) (Some sec) = (sec', Ok (Some dom)) /\
  endo_grid (fun _ => Ok [2; 2]%nat) (fun _ => Err ExcType) (fun _ => Err ExcType) two_states (Ok (Some dom)) = Ok (EUniform g) /\
  mget (u_nodes g) 0 0 = 5%R.
Proof.
  exists [("b", (BNum 5%R, BNum 6%R)); ("k", (BNum 0%R, BNum 1%R))]%string.
  do 2 eexists.
  destruct (cartesian_grid (fun _ => Ok [2; 2]%nat) (fun _ => Err ExcType) (fun _ => Err ExcType) two_states
              [("b", (5%R, 6%R)); ("k", (0%R, 1%R))]%string "!Cartesian"%string [("n", YScalar "" "2")]%string [2; 2]%nat)
    as (g & E & N & C & axes & L & A & F).
  - reflexivity.
  - left. reflexivity.
  - discriminate.
  - reflexivity.
  - reflexivity.
  - repeat constructor; lia.
  - exists g. split; [reflexivity|]. split; [reflexivity|]. split; [reflexivity|]. split; [exact E|].
    destruct (A 0%nat _ _ _ eq_refl) as (A1 & A2). destruct (A 1%nat _ _ _ eq_refl) as (A3 & A4).
    destruct axes as [|a1 [|a2 [|]]]; try discriminate L. cbn [nth] in *.
    destruct A1 as (L1 & _). destruct A3 as (L2 & _).
    specialize (F [0; 0]%nat). cbn [map] in F. rewrite L1, L2 in F.
    specialize (F ltac:(repeat constructor; lia) 0%nat ltac:(simpl; lia)). cbn in F. rewrite F. exact A2.
Qed.
