(** The functions of a model and the algorithms that need them. *)
From Coq Require Import String List Bool ZArith Lia Permutation Reals.
From Verif Require Import Base.Prelude Base.Dict Model.CompilerMisc Model.Factories Model.ModelObject
  Model.CompiledFunctions Spec.CompiledFunctions Spec.Factories Model.Examples Spec.Examples
  Proofs.DefinitionOrder Proofs.ExamplesRun.
Import ListNotations.
Open Scope string_scope.
Open Scope list_scope.

Section Proofs.
Context {V : Type}.
Variable reorder : list (sym * expr V) -> res (list (sym * expr V)).
Notation source := (@source V).

Lemma compile_each_spec : forall (m : source) names d d', compile_each reorder m names d = Ok d' ->
  equivalences d' = equivalences d /\
  (forall n, In n names -> exists f, get_factory reorder m n 0 = Ok f /\ dget (items d') n = Some f) /\
  (forall n, ~ In n names -> dget (items d') n = dget (items d) n).
Proof.
  intros m. induction names as [|a r IH]; intros d d' H; cbn [compile_each] in H.
  - injection H as <-. split; [reflexivity|]. split; [intros n []|reflexivity].
  - destruct (get_factory reorder m a 0) as [f|] eqn:Ef; cbn [bind] in H; [|discriminate].
    destruct (IH _ _ H) as (E & HI & HN). cbn [loosy_setitem equivalences items] in E, HN.
    split; [exact E|]. split.
    + intros n [<-|Hn]; [|apply HI, Hn].
      destruct (in_dec string_dec a r) as [Hr|Hr]; [apply HI, Hr|].
      exists f. split; [exact Ef|]. rewrite HN by exact Hr. apply dget_dset_same.
    + intros n Hn. rewrite HN by (intros C; apply Hn; right; exact C).
      apply dget_dset_other. intros ->. apply Hn. left. reflexivity.
Qed.

Lemma in_function_names : forall (m : source) n, In n (function_names m) <-> has_block m n.
Proof.
  intros m n. unfold function_names, has_block. rewrite in_app_iff. unfold dkeys. rewrite in_map_iff. split.
  - intros [((k & e) & <- & H)|H]; [left; exists e; exact H|right].
    destruct (src_definitions m); [destruct H|]. destruct H as [<-|[]]. split; [reflexivity|discriminate].
  - intros [(e & H)|(-> & H)]; [left; exists (n, e); auto|right].
    destruct (src_definitions m); [congruence|left; reflexivity].
Qed.

Lemma compiled_item : forall (m : source) d n, compile_functions reorder m = Ok d ->
  match dget (items d) n with
  | Some f => has_block m n /\ get_factory reorder m n 0 = Ok f
  | None => ~ has_block m n
  end.
Proof.
  intros m d n H. unfold compile_functions in H. apply compile_each_spec in H. destruct H as (_ & HI & HN).
  destruct (in_dec string_dec n (function_names m)) as [Hn|Hn].
  - destruct (HI n Hn) as (f & Hf & ->). split; [apply in_function_names, Hn|exact Hf].
  - rewrite (HN n Hn). cbn. rewrite <- in_function_names. exact Hn.
Qed.

Lemma compiled_equivalences : forall (m : source) d, compile_functions reorder m = Ok d ->
  equivalences d = function_equivalences.
Proof. intros m d H. apply compile_each_spec in H. apply H. Qed.

Lemma resolves : forall n,
  match dget function_equivalences n with Some k => k | None => n end = meant_by n.
Proof.
  intros n. unfold function_equivalences, meant_by. cbn [dget].
  destruct (String.eqb_spec n "equilibrium") as [->|H]; [reflexivity|].
  destruct (string_dec n "equilibrium") as [|_]; [contradiction|].
  destruct (String.eqb_spec n "optimality") as [->|H2]; [reflexivity|].
  destruct (string_dec n "optimality") as [|_]; [contradiction|]. reflexivity.
Qed.

Theorem functions_of : forall (m : source) d n, compile_functions reorder m = Ok d ->
  (forall f, loosy_getitem d n = Ok f <-> has_block m (meant_by n) /\ get_factory reorder m (meant_by n) 0 = Ok f) /\
  (~ has_block m (meant_by n) -> loosy_getitem d n = Err ExcKey) /\
  (loosy_contains d n = true <-> has_block m n).
Proof.
  intros m d n H. unfold loosy_getitem, loosy_contains, dmem. rewrite (compiled_equivalences m d H), resolves.
  pose proof (compiled_item m d (meant_by n) H) as HM. pose proof (compiled_item m d n H) as HN.
  split; [|split].
  - intros f. destruct (dget (items d) (meant_by n)) as [f'|]; split; intros A; try discriminate.
    + injection A as <-. exact HM.
    + destruct HM as (_ & E). destruct A as (_ & E'). congruence.
    + destruct A as (A & _). contradiction.
  - intros A. destruct (dget (items d) (meant_by n)); [destruct HM; contradiction|reflexivity].
  - destruct (dget (items d) n); split; intros A; try reflexivity; try discriminate; [apply HN|contradiction].
Qed.

Lemma get_all_spec : forall (d : loosy (@factory V)) names,
  match get_all d names with
  | Ok _ => forall n, In n names -> exists f, loosy_getitem d n = Ok f
  | Err e => e = ExcKey /\ exists n, In n names /\ loosy_getitem d n = Err ExcKey
  end.
Proof.
  intros d. unfold get_all. induction names as [|a r IH]; cbn [map_res]; [intros n []|].
  destruct (loosy_getitem d a) as [f|e] eqn:Ea; cbn [bind].
  - destruct (map_res (loosy_getitem d) r); cbn [bind].
    + intros n [<-|Hn]; [exists f; exact Ea|apply IH, Hn].
    + destruct IH as (-> & n & Hn & E). split; [reflexivity|]. exists n. split; [right; exact Hn|exact E].
  - assert (e = ExcKey) as ->.
    { unfold loosy_getitem in Ea. cbv zeta in Ea.
      destruct (dget (items d) _) in Ea; congruence. }
    split; [reflexivity|]. exists a. split; [left; reflexivity|exact Ea].
Qed.

Lemma get_all_blocks : forall (m : source) d names, compile_functions reorder m = Ok d ->
  (forall n, In n names -> meant_by n = n) ->
  match get_all d names with
  | Ok _ => forall n, In n names -> has_block m n
  | Err e => e = ExcKey /\ exists n, In n names /\ ~ has_block m n
  end.
Proof.
  intros m d names H Hm. pose proof (get_all_spec d names) as G. destruct (get_all d names).
  - intros n Hn. destruct (G n Hn) as (f & Hf). apply (functions_of m d n H) in Hf. destruct Hf as (Hf & _).
    rewrite Hm in Hf by exact Hn. exact Hf.
  - destruct G as (-> & n & Hn & E). split; [reflexivity|]. exists n. split; [exact Hn|]. intros C.
    pose proof (compiled_item m d n H) as I. unfold loosy_getitem in E.
    rewrite (compiled_equivalences m d H), resolves, Hm in E by exact Hn.
    destruct (dget (items d) n); [discriminate|contradiction].
Qed.

(** The same without equivalences. *)
Lemma get_all_plain : forall (m : source) d names, compile_functions reorder m = Ok d ->
  match get_all (Loosy (items d) []) names with
  | Ok _ => forall n, In n names -> has_block m n
  | Err e => e = ExcKey /\ exists n, In n names /\ ~ has_block m n
  end.
Proof.
  intros m d names H. pose proof (get_all_spec (Loosy (items d) []) names) as G. destruct (get_all _ names).
  - intros n Hn. destruct (G n Hn) as (f & Hf). unfold loosy_getitem in Hf. cbn in Hf.
    pose proof (compiled_item m d n H) as I. destruct (dget (items d) n); [apply I|discriminate].
  - destruct G as (-> & n & Hn & E). split; [reflexivity|]. exists n. split; [exact Hn|]. intros C.
    pose proof (compiled_item m d n H) as I. unfold loosy_getitem in E. cbn in E.
    destruct (dget (items d) n); [discriminate|contradiction].
Qed.

Lemma meant_self : forall n, n <> "equilibrium" -> n <> "optimality" -> meant_by n = n.
Proof.
  intros n A B. unfold meant_by. destruct (string_dec n "equilibrium"); [contradiction|].
  destruct (string_dec n "optimality"); [contradiction|reflexivity].
Qed.

Ltac self := let n := fresh in let H := fresh in intros n H; cbn [In] in H;
  repeat (destruct H as [<-|H]; [reflexivity|]); destruct H.

Notation ready := (ready reorder).

Lemma ready_read : forall m st d, ready m st d -> read_functions reorder m st = Ok d.
Proof. intros m st d (H & [->| ->]); [reflexivity|exact H]. Qed.

Theorem algorithm_starts : forall (m : source) st d a, ready m st d -> (a = Egm -> st <> None) ->
  match algorithm_functions reorder m st a with
  | Ok _ => forall n, needs m a n -> has_block m n
  | Err e => e = ExcKey /\ exists n, needs m a n /\ ~ has_block m n
  end.
Proof.
  intros m st d a R HE. pose proof (ready_read m st d R) as RR. destruct R as (C & HS).
  destruct a; cbn [algorithm_functions needs]; try rewrite RR; cbn [bind].
  - apply (get_all_blocks m d); [exact C|self].
  - apply (get_all_blocks m d); [exact C|self].
  - pose proof (get_all_blocks m d ["arbitrage"; "transition"] C ltac:(self)) as G1.
    destruct (get_all d ["arbitrage"; "transition"]); cbn [bind].
    2:{ destruct G1 as (-> & n & Hn & Hb). split; [reflexivity|]. exists n. split; [left; exact Hn|exact Hb]. }
    pose proof (proj2 (proj2 (functions_of m d "arbitrage_lb" C))) as HL.
    destruct (loosy_contains d "arbitrage_lb" && constrained)%bool eqn:E.
    + apply andb_true_iff in E. destruct E as (E & ->). apply HL in E.
      pose proof (get_all_blocks m d ["arbitrage_lb"; "arbitrage_ub"] C ltac:(self)) as G2.
      destruct (get_all d ["arbitrage_lb"; "arbitrage_ub"]); cbn [bind].
      * intros n [Hn|(_ & _ & ->)]; [apply G1, Hn|apply G2; right; left; reflexivity].
      * destruct G2 as (-> & n & Hn & Hb). split; [reflexivity|].
        destruct Hn as [<-|[<-|[]]]; [contradiction|]. exists "arbitrage_ub". split; [|exact Hb].
        right. auto.
    + intros n [Hn|(-> & A & _)]; [apply G1, Hn|]. apply HL in A. rewrite A in E. discriminate.
  - apply (get_all_blocks m d); [exact C|self].
  - apply (get_all_blocks m d); [exact C|self].
  - apply (get_all_blocks m d); [exact C|self].
  - destruct HS as [->| ->]; [|exfalso; apply HE; reflexivity]. apply (get_all_plain m d _ C).
Qed.

Lemma chosen_known : forall n sp, chosen_spec n = Some sp -> known_block n.
Proof.
  intros n sp H. unfold chosen_spec, recipes in H. unfold known_block. cbn [In].
  repeat match type of H with
  | (if (?a =? ?b) || (?a =? ?c) then _ else _) = _ =>
      destruct (String.eqb_spec a b) as [->|]; [tauto|]; destruct (String.eqb_spec a c) as [->|]; [tauto|]; cbn [orb] in H
  | (if ?a =? ?b then _ else _) = _ => destruct (String.eqb_spec a b) as [->|]; [tauto|]
  end. discriminate.
Qed.

Lemma known_chosen : forall n, known_block n -> exists sp, chosen_spec n = Some sp.
Proof.
  intros n H. unfold known_block in H. cbn [In] in H.
  repeat (destruct H as [<-|H]; [eexists; reflexivity|]). destruct H.
Qed.

Theorem blocks_known : forall (m : source) d n, compile_functions reorder m = Ok d -> has_block m n -> known_block n.
Proof.
  intros m d n H B. pose proof (compiled_item m d n H) as I. destruct (dget (items d) n) as [f|]; [|contradiction].
  destruct I as (_ & G). unfold get_factory in G. destruct (chosen_equations m n); cbn [bind] in G; [|discriminate].
  destruct (chosen_spec n) as [sp|] eqn:E; [|discriminate]. eapply chosen_known, E.
Qed.

(** No model has the functions that value iteration looks for. *)
Theorem value_iteration_fails : forall (m : source) check st, new_model reorder check m = Ok st ->
  exists e, algorithm_functions reorder m st ValueIteration = Err e /\
    (forall d, compile_functions reorder m = Ok d -> e = ExcKey).
Proof.
  intros m check st H.
  destruct (compile_functions reorder m) as [d|e] eqn:C.
  - assert (R : ready m st d).
    { split; [exact C|]. unfold new_model in H. destruct check; [|injection H as <-; right; reflexivity].
      rewrite C in H. cbn [bind] in H. destruct (x_bounds (items d)); [|discriminate].
      injection H as <-. left. reflexivity. }
    pose proof (algorithm_starts m st d ValueIteration R ltac:(discriminate)) as G.
    destruct (algorithm_functions reorder m st ValueIteration) as [l|e].
    + exfalso. assert (B : has_block m "controls_lb") by (apply G; cbn; tauto).
      pose proof (blocks_known m d _ C B) as K. unfold known_block in K. cbn [In] in K.
      repeat (destruct K as [K|K]; [discriminate K|]). exact K.
    + exists e. split; [reflexivity|]. intros _ _. apply G.
  - destruct check; unfold new_model in H; [rewrite C in H; discriminate|]. injection H as <-.
    exists e. split; [cbn; rewrite C; reflexivity|]. intros d Hd. discriminate.
Qed.

Theorem x_bounds_of : forall (m : source) d, compile_functions reorder m = Ok d ->
  (x_bounds (items d) = Ok None <-> ~ has_block m "arbitrage_ub") /\
  (forall l u, x_bounds (items d) = Ok (Some (l, u)) <->
     has_block m "arbitrage_lb" /\ has_block m "arbitrage_ub" /\
     get_factory reorder m "arbitrage_lb" 0 = Ok l /\ get_factory reorder m "arbitrage_ub" 0 = Ok u) /\
  (has_block m "arbitrage_ub" -> ~ has_block m "arbitrage_lb" -> x_bounds (items d) = Err ExcKey).
Proof.
  intros m d C.
  assert (N : dget (items d) "controls_ub" = None).
  { pose proof (compiled_item m d "controls_ub" C) as I. destruct (dget (items d) "controls_ub"); [|reflexivity].
    exfalso. pose proof (blocks_known m d _ C (proj1 I)) as K. unfold known_block in K. cbn [In] in K.
    repeat (destruct K as [K|K]; [discriminate K|]). exact K. }
  pose proof (compiled_item m d "arbitrage_lb" C) as L. pose proof (compiled_item m d "arbitrage_ub" C) as U.
  unfold x_bounds, dmem. rewrite N.
  destruct (dget (items d) "arbitrage_ub") as [u|]; destruct (dget (items d) "arbitrage_lb") as [l|]; cbn [bind].
  all: split; [|split].
  all: try (split; [intros E; try discriminate E; tauto|intros E; try reflexivity; exfalso; tauto]).
  all: try tauto.
  - intros l' u'. split; [intros E; injection E as <- <-; tauto|]. intros (_ & _ & A & B).
    destruct L as (_ & L). destruct U as (_ & U). congruence.
Qed.

(** The other names of the arbitrage equations cannot be used in a file. *)
Theorem alias_refused : forall (m : source) n, n = "equilibrium" \/ n = "optimality" -> has_block m n ->
  forall check, exists e, (if check : bool then new_model reorder check m = Err e
                           else compile_functions reorder m = Err e).
Proof.
  intros m n Hn B check. destruct (compile_functions reorder m) as [d|e] eqn:C.
  - exfalso. pose proof (blocks_known m d n C B) as K. unfold known_block in K. cbn [In] in K.
    destruct Hn as [->| ->]; repeat (destruct K as [K|K]; [discriminate K|]); exact K.
  - exists e. destruct check; [unfold new_model; rewrite C|]; reflexivity.
Qed.

Theorem egm_unchecked : forall (m : source) st, new_model reorder false m = Ok st ->
  algorithm_functions reorder m st Egm = Err ExcAttribute.
Proof. intros m st H. injection H as <-. reflexivity. Qed.
End Proofs.

(** ** The files of examples/models *)
Section Shipped.
Variable reorder : list (sym * formula) -> res (list (sym * formula)).
Hypothesis RO : right_order reorder.

Lemma reorder_triangular : forall l, triangular l -> exists l', reorder l = Ok l'.
Proof. intros l H. destruct RO as (_ & R). apply (R l l); [apply Permutation_refl|exact H]. Qed.

Ltac definitions_in_order :=
  cbn; repeat (split; [let y := fresh in let Hy := fresh in intros y Hy;
    repeat (destruct Hy as [<-|Hy]; [intuition discriminate|]); destruct Hy|]); exact I.

Ltac compiles_now :=
  unfold get_factory; cbn -[make_definitions];
  match goal with |- context [reorder ?l] =>
    destruct (reorder_triangular l) as (? & ->); [definitions_in_order|] end;
  cbn [bind]; eexists; reflexivity.

Lemma get_compiled : forall (m : @source num), (forall n, In n (function_names m) -> exists f, get_factory reorder m n 0 = Ok f) ->
  exists d, compile_functions reorder m = Ok d.
Proof.
  intros m H. unfold compile_functions. revert H. generalize (Loosy (V := @factory num) [] function_equivalences).
  generalize (function_names m). induction l as [|n r IH]; intros d H; cbn [compile_each]; [eexists; reflexivity|].
  destruct (H n (or_introl eq_refl)) as (f & ->). cbn [bind]. apply IH. intros k Hk. apply H. right. exact Hk.
Qed.

Ltac compiles f :=
  apply get_compiled; let n := fresh "n" in let Hn := fresh "Hn" in intros n Hn;
  cbn [function_names f file_source src_equations src_definitions rbc_value_equations dkeys map app fst] in Hn;
  repeat (destruct Hn as [<-|Hn]; [compiles_now|]); destruct Hn.

Lemma rbc_compiles : exists d, compile_functions reorder (file_source rbc_file) = Ok d.
Proof. compiles rbc_file. Qed.
Lemma rbc_iid_compiles : exists d, compile_functions reorder (file_source rbc_iid_file) = Ok d.
Proof. compiles rbc_iid_file. Qed.
Lemma rbc_ar1_compiles : exists d, compile_functions reorder (file_source rbc_ar1_file) = Ok d.
Proof. compiles rbc_ar1_file. Qed.
Lemma rbc_mc_compiles : exists d, compile_functions reorder (file_source rbc_mc_file) = Ok d.
Proof. compiles rbc_mc_file. Qed.
Lemma fiscal_compiles : exists d, compile_functions reorder (file_source fiscal_file) = Ok d.
Proof. compiles fiscal_file. Qed.
Lemma savings_compiles : exists d, compile_functions reorder (file_source savings_file) = Ok d.
Proof. compiles savings_file. Qed.

Definition block_dec (m : @source num) (n : string) : {has_block m n} + {~ has_block m n}.
Proof.
  destruct (in_dec string_dec n (function_names m)) as [H|H].
  - left. apply in_function_names, H.
  - right. intros C. apply H, in_function_names, C.
Defined.

(** Start of a file whose functions compile and whose bounds go by pairs. *)
Lemma file_starts : forall (m : @source num), (exists d, compile_functions reorder m = Ok d) ->
  (has_block m "arbitrage_ub" -> has_block m "arbitrage_lb") ->
  exists st, new_model reorder true m = Ok st /\
    forall a, (exists l, algorithm_functions reorder m st a = Ok l) <-> (forall n, needs m a n -> has_block m n).
Proof.
  intros m (d & C) HB. exists (Some d). split.
  - unfold new_model. rewrite C. cbn [bind]. destruct (x_bounds_of reorder m d C) as (X1 & X2 & X3).
    destruct (x_bounds (items d)) as [b|e] eqn:E; [reflexivity|exfalso].
    destruct (block_dec m "arbitrage_ub") as [B|B]; [|apply X1 in B; discriminate].
    pose proof (HB B) as L. destruct (functions_of reorder m d "arbitrage_lb" C) as (F & _ & _).
    pose proof (compiled_item reorder m d "arbitrage_lb" C) as I1. pose proof (compiled_item reorder m d "arbitrage_ub" C) as I2.
    destruct (dget (items d) "arbitrage_lb") as [l|]; [|contradiction].
    destruct (dget (items d) "arbitrage_ub") as [u|]; [|contradiction].
    pose proof (proj2 (X2 l u) ltac:(tauto)) as Y. discriminate Y.
  - intros a. assert (R : ready reorder m (Some d) d) by (split; [exact C|left; reflexivity]).
    pose proof (algorithm_starts reorder m (Some d) d a R ltac:(discriminate)) as G.
    destruct (algorithm_functions reorder m (Some d) a) as [l|e]; split; intros H.
    + exact G.
    + exists l. reflexivity.
    + destruct H as (l & H). discriminate.
    + destruct G as (_ & n & Hn & Hb). exfalso. apply Hb, H, Hn.
Qed.
End Shipped.

Lemma block_names : forall (m : @source num) n, has_block m n <-> existsb (String.eqb n) (function_names m) = true.
Proof.
  intros m n. rewrite <- in_function_names, existsb_exists. split.
  - intros H. exists n. split; [exact H|apply String.eqb_refl].
  - intros (x & H & E). apply String.eqb_eq in E. subst. exact H.
Qed.

Fixpoint all_blocks (m : @source num) (l : list string) : bool :=
  match l with [] => true | n :: r => existsb (String.eqb n) (function_names m) && all_blocks m r end.
Lemma all_blocks_spec : forall m l, (forall n, In n l -> has_block m n) <-> all_blocks m l = true.
Proof.
  intros m. induction l as [|a r IH]; cbn [all_blocks In]; [split; [reflexivity|intros _ n []]|].
  rewrite andb_true_iff, <- IH, <- block_names. split.
  - intros H. split; [apply H; left; reflexivity|intros n Hn; apply H; right; exact Hn].
  - intros (A & B) n [<-|Hn]; [exact A|apply B, Hn].
Qed.

Theorem shipped_runs : forall reorder, right_order reorder -> forall f,
  exists st, new_model reorder true (file_source (shipped_file f)) = Ok st /\
    forall a, (exists l, algorithm_functions reorder (file_source (shipped_file f)) st a = Ok l) <-> runs_on a f.
Proof.
  intros reorder RO f.
  assert (Z : exists d, compile_functions reorder (file_source (shipped_file f)) = Ok d).
  { destruct f; cbn [shipped_file].
    - apply rbc_compiles, RO. - apply rbc_iid_compiles, RO. - apply rbc_ar1_compiles, RO.
    - apply rbc_mc_compiles, RO. - apply fiscal_compiles, RO. - apply savings_compiles, RO. }
  assert (B : has_block (file_source (shipped_file f)) "arbitrage_ub" -> has_block (file_source (shipped_file f)) "arbitrage_lb").
  { rewrite !block_names. destruct f; cbn; intros H; exact H. }
  destruct (file_starts reorder (file_source (shipped_file f)) Z B) as (st & Hst & HA). exists st. split; [exact Hst|].
  intros a. rewrite HA. clear HA Hst Z B.
  assert (TI : forall c n, needs (file_source (shipped_file f)) (TimeIteration c) n -> has_block (file_source (shipped_file f)) n).
  { intros c n [Hn|(_ & L & ->)].
    - revert n Hn. apply all_blocks_spec. destruct f; reflexivity.
    - revert L. rewrite !block_names. destruct f; cbn; intros H; exact H. }
  destruct a; cbn [runs_on].
  - split; [auto|intros _ n Hn]. apply (TI false). left. exact Hn.
  - split; [auto|intros _ n Hn]. apply (TI false). left. exact Hn.
  - split; [auto|intros _]. apply TI.
  - cbn [needs]. rewrite all_blocks_spec. destruct f; cbn; intuition discriminate.
  - cbn [needs]. rewrite all_blocks_spec. destruct f; cbn; intuition discriminate.
  - cbn [needs]. rewrite all_blocks_spec. destruct f; cbn; intuition discriminate.
  - cbn [needs]. rewrite all_blocks_spec. destruct f; cbn; intuition discriminate.
Qed.

Lemma rbc_mc_case :
  has_block (file_source rbc_mc_file) "felicity" /\
  exists st d, new_model tri_order true (file_source rbc_mc_file) = Ok st /\
    CompiledFunctions.ready tri_order (file_source rbc_mc_file) st d /\
    (exists l, algorithm_functions tri_order (file_source rbc_mc_file) st (TimeIteration true) = Ok l) /\
    algorithm_functions tri_order (file_source rbc_mc_file) st ValueIteration = Err ExcKey.
Proof.
  split; [apply block_names; reflexivity|].
  pose proof example_order_right as RO.
  destruct (shipped_runs tri_order RO RbcMc) as (st & Hst & HA). destruct (rbc_mc_compiles tri_order RO) as (d & C).
  exists st, d. split; [exact Hst|]. split; [|split].
  - split; [exact C|]. left. unfold new_model in Hst. cbn [shipped_file] in Hst. rewrite C in Hst. cbn [bind] in Hst.
    destruct (x_bounds (items d)); [|discriminate]. injection Hst as <-. reflexivity.
  - apply (HA (TimeIteration true)). exact I.
  - destruct (value_iteration_fails tri_order _ true st Hst) as (e & He & Hd). rewrite <- (Hd d C). exact He.
Qed.
