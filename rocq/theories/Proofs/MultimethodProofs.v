(** Proofs on multimethods. *)
From Coq Require Import String List Arith Bool Lia.
From Verif.Base Require Import Prelude.
From Verif.Model Require Import Multimethod.
From Verif.Spec Require Import Multimethod.
Import ListNotations.

(* ------------------------------------------------------------------ *)
(** ** Lexicographic order *)

Lemma lex_irrefl : forall a, lex_ltb a a = false.
Proof. induction a as [|x a IH]; cbn; [reflexivity|]. rewrite Nat.eqb_refl. exact IH. Qed.
Lemma lex_asym : forall a b, lex_ltb a b = true -> lex_ltb b a = false.
Proof.
  induction a as [|x a IH]; intros [|y b] H; cbn in *; try discriminate; try reflexivity.
  rewrite (Nat.eqb_sym y x). destruct (Nat.eqb_spec x y); [exact (IH b H)|]. apply Nat.ltb_lt in H. apply Nat.ltb_ge. lia.
Qed.
Lemma lex_min_is : forall D l m, (m = D \/ lex_ltb D m = true) -> (forall x, In x l -> x = D \/ lex_ltb D x = true) ->
    (m = D \/ In D l) -> lex_min m l = D.
Proof.
  intros D. induction l as [|x l IH]; intros m Hm Hl HD; cbn [lex_min].
  - destruct HD as [->|[]]. reflexivity.
  - assert (Hl' : forall y, In y l -> y = D \/ lex_ltb D y = true) by (intros y Hy; apply Hl; right; exact Hy).
    destruct (Hl x (or_introl eq_refl)) as [->|Hx].
    + destruct (lex_ltb D m) eqn:E.
      * apply IH; [left; reflexivity|exact Hl'|left; reflexivity].
      * destruct Hm as [->|Hm]; [|congruence]. apply IH; [left; reflexivity|exact Hl'|left; reflexivity].
    + destruct (lex_ltb x m) eqn:E.
      * apply IH; [right; exact Hx|exact Hl'|]. destruct HD as [->|[->|HD]].
        -- rewrite (lex_asym D x Hx) in E. discriminate.
        -- rewrite lex_irrefl in Hx. discriminate.
        -- right. exact HD.
      * apply IH; [exact Hm|exact Hl'|]. destruct HD as [->|[->|HD]]; [left; reflexivity| |right; exact HD].
        rewrite lex_irrefl in Hx. discriminate.
Qed.
Lemma nat_list_eqb_spec : forall a b, reflect (a = b) (nat_list_eqb a b).
Proof.
  induction a as [|x a IH]; intros [|y b]; cbn; try (constructor; congruence).
  destruct (Nat.eqb_spec x y) as [->|N]; cbn [andb]; [|constructor; congruence]. destruct (IH b) as [->|N]; constructor; congruence.
Qed.
Lemma lex_min_in : forall l m, lex_min m l = m \/ In (lex_min m l) l.
Proof.
  induction l as [|x l IH]; intros m; cbn [lex_min]; [left; reflexivity|].
  destruct (lex_ltb x m); [destruct (IH x) as [E|E]; right; [left; symmetry; exact E|right; exact E]|].
  destruct (IH m) as [E|E]; [left; exact E|right; right; exact E].
Qed.

Section P.
  Variable cls : Type.
  Variable cls_eqb : cls -> cls -> bool.
  Variable sub : cls -> cls -> bool.
  Variable mro : cls -> list cls.
  Variable object : cls.
  Hypothesis EQB : forall a b, cls_eqb a b = true <-> a = b.

  Notation sig := (list cls).
  Notation sig_eqb := (sig_eqb cls cls_eqb).
  Notation sig_le := (sig_le cls sub).
  Notation sig_lt := (sig_lt cls cls_eqb sub).
  Notation parents := (parents cls cls_eqb sub).
  Notation find_fun := (find_fun cls cls_eqb).
  Notation resolve := (resolve cls cls_eqb sub mro object).
  Notation setitem := (setitem cls cls_eqb sub).
  Notation delitem := (delitem cls cls_eqb sub).
  Notation run := (run cls cls_eqb sub mro object).
  Notation step := (step cls cls_eqb sub mro object).
  Notation answer := (answer cls cls_eqb sub mro object).
  Notation accepts := (accepts cls sub).
  Notation live := (live cls cls_eqb).
  Notation sig_mem := (sig_mem cls cls_eqb).
  Notation distance := (distance cls cls_eqb mro object).

  Lemma sig_eqb_spec : forall a b, reflect (a = b) (sig_eqb a b).
  Proof.
    induction a as [|x a IH]; intros [|y b]; cbn; try (constructor; congruence).
    destruct (cls_eqb x y) eqn:E; cbn [andb].
    - apply EQB in E. subst y. destruct (IH b) as [->|N]; constructor; congruence.
    - constructor. intros H. injection H as -> _. assert (cls_eqb y y = true) by (apply EQB; reflexivity). congruence.
  Qed.
  Lemma sig_eqb_refl : forall a, sig_eqb a a = true.
  Proof. intros a. destruct (sig_eqb_spec a a); [reflexivity|congruence]. Qed.

  Lemma sig_mem_spec : forall a l, sig_mem a l = true <-> In a l.
  Proof.
    intros a l. unfold Multimethod.sig_mem. rewrite existsb_exists. split.
    - intros (x & Hx & E). destruct (sig_eqb_spec a x); [subst; exact Hx|discriminate].
    - intros H. exists a. split; [exact H|apply sig_eqb_refl].
  Qed.

  Lemma combine_subs : forall a b, (length a <= length b)%nat ->
      (forallb (fun p => sub (fst p) (snd p)) (combine b a) = true <->
       forall i x y, nth_error a i = Some x -> nth_error b i = Some y -> sub y x = true).
  Proof.
    induction a as [|x a IH]; intros b HL.
    - split; [intros _ i u v Hi; destruct i; discriminate|]. intros _. destruct b; reflexivity.
    - destruct b as [|y b]; [cbn in HL; lia|]. cbn [combine forallb fst snd]. rewrite andb_true_iff, (IH b) by (cbn in HL; lia). split.
      + intros (H1 & H2) i u v Hi Hv. destruct i as [|i]; cbn in Hi, Hv; [injection Hi as <-; injection Hv as <-; exact H1|exact (H2 i u v Hi Hv)].
      + intros H. split; [exact (H 0%nat x y eq_refl eq_refl)|]. intros i u v. exact (H (S i) u v).
  Qed.
  Lemma sig_le_spec : forall a b, sig_le a b = true <-> accepts a b.
  Proof.
    intros a b. unfold Multimethod.sig_le, Spec.Multimethod.accepts. rewrite andb_true_iff, Nat.leb_le. split; intros (H1 & H2); (split; [exact H1|apply combine_subs; assumption]).
  Qed.
  Lemma sig_lt_spec : forall a b, sig_lt a b = true <-> a <> b /\ accepts a b.
  Proof.
    intros a b. unfold Multimethod.sig_lt. rewrite andb_true_iff, sig_le_spec, negb_true_iff. destruct (sig_eqb_spec a b); split; intros (H1 & H2); split; congruence.
  Qed.

  (* ---------------------------------------------------------------- *)
  (** *** The dictionary *)

  Lemma find_fun_in : forall es e, In e es -> exists f, find_fun es (e_sig cls e) = Some f.
  Proof.
    intros es e H. unfold Multimethod.find_fun. destruct (find _ es) as [e'|] eqn:E; [eexists; reflexivity|].
    pose proof (find_none _ _ E e H) as K. cbv beta in K. rewrite sig_eqb_refl in K. discriminate.
  Qed.
  Lemma find_fun_some : forall es s f, find_fun es s = Some f -> exists e, In e es /\ e_sig cls e = s /\ e_fun cls e = f.
  Proof.
    intros es s f H. unfold Multimethod.find_fun in H. destruct (find _ es) as [e|] eqn:E; [|discriminate]. injection H as <-.
    apply find_some in E. destruct E as (H1 & H2). destruct (sig_eqb_spec s (e_sig cls e)); [|discriminate]. exists e. repeat split; congruence.
  Qed.

  Lemma find_fun_map : forall (g : entry cls -> entry cls) es s, (forall e, e_sig cls (g e) = e_sig cls e) ->
      find_fun (map g es) s = match find (fun e => sig_eqb s (e_sig cls e)) es with Some e => Some (e_fun cls (g e)) | None => None end.
  Proof.
    intros g es s Hg. unfold Multimethod.find_fun. induction es as [|e es IH]; cbn [map find]; [reflexivity|]. rewrite Hg.
    destruct (sig_eqb s (e_sig cls e)); [reflexivity|exact IH].
  Qed.

  Lemma find_fun_app : forall es es' s, find_fun (es ++ es') s = match find_fun es s with Some f => Some f | None => find_fun es' s end.
  Proof.
    intros es es' s. unfold Multimethod.find_fun. induction es as [|e es IH]; cbn [app find]; [reflexivity|].
    destruct (sig_eqb s (e_sig cls e)); [reflexivity|exact IH].
  Qed.

  Lemma setitem_find : forall t types f s, find_fun (methods cls (setitem t types f)) s = if sig_eqb s types then Some f else find_fun (methods cls t) s.
  Proof.
    intros t types f s. unfold Multimethod.setitem. cbv zeta.
    set (g := fun e : entry cls => if _ && _ then _ else e).
    assert (Hg : forall e, e_sig cls (g e) = e_sig cls e) by (intros e; unfold g; destruct (_ && _); reflexivity).
    assert (Hf : forall e, e_fun cls (g e) = e_fun cls e) by (intros e; unfold g; destruct (_ && _); reflexivity).
    assert (FM : find_fun (map g (methods cls t)) s = find_fun (methods cls t) s).
    { rewrite find_fun_map by exact Hg. unfold Multimethod.find_fun. destruct (find _ _); [rewrite Hf; reflexivity|reflexivity]. }
    destruct (existsb _ (map g (methods cls t))) eqn:E; cbn [methods].
    - rewrite find_fun_map by (intros e; destruct (sig_eqb types (e_sig cls e)); reflexivity).
      destruct (find (fun e => sig_eqb s (e_sig cls e)) (map g (methods cls t))) as [e|] eqn:F.
      + pose proof (find_some _ _ F) as (_ & F2). cbv beta in F2. destruct (sig_eqb_spec s (e_sig cls e)) as [->|]; [|discriminate].
        destruct (sig_eqb_spec types (e_sig cls e)) as [->|N].
        * rewrite sig_eqb_refl. reflexivity.
        * destruct (sig_eqb_spec (e_sig cls e) types); [congruence|]. rewrite <- FM. unfold Multimethod.find_fun. rewrite F. reflexivity.
      + destruct (sig_eqb_spec s types) as [->|N].
        * apply existsb_exists in E. destruct E as (e & He & K). pose proof (find_none _ _ F e He) as K'. cbv beta in K'. congruence.
        * rewrite <- FM. unfold Multimethod.find_fun. rewrite F. reflexivity.
    - rewrite find_fun_app, FM. cbn [Multimethod.find_fun find e_sig].
      assert (N : find_fun (methods cls t) types = None).
      { destruct (find_fun (methods cls t) types) as [f0|] eqn:F; [|reflexivity]. apply find_fun_some in F. destruct F as (e & He & Hs & _).
        assert (K : existsb (fun e => sig_eqb types (e_sig cls e)) (map g (methods cls t)) = true).
        { apply existsb_exists. exists (g e). split; [apply in_map; exact He|]. rewrite Hg, Hs. apply sig_eqb_refl. }
        congruence. }
      unfold Multimethod.find_fun at 2. cbn [find e_sig].
      destruct (sig_eqb_spec s types) as [->|]; [rewrite N; reflexivity|]. destruct (find_fun (methods cls t) s); reflexivity.
  Qed.

  Lemma delete_loop_find : forall types todo done s, find_fun (delete_loop cls cls_eqb sub types done todo) s = find_fun (done ++ todo) s.
  Proof.
    intros types. induction todo as [|e todo IH]; intros done s; cbn [delete_loop]; [rewrite app_nil_r; reflexivity|].
    rewrite IH. rewrite <- app_assoc. rewrite !find_fun_app. destruct (find_fun done s); [reflexivity|].
    unfold Multimethod.find_fun. cbn [app find]. destruct (sig_mem types (e_parents cls e)); cbn [e_sig e_fun]; destruct (sig_eqb s (e_sig cls e)); reflexivity.
  Qed.

  Lemma find_fun_filter : forall es types s, find_fun (filter (fun e => negb (sig_eqb types (e_sig cls e))) es) s = if sig_eqb s types then None else find_fun es s.
  Proof.
    intros es types s. unfold Multimethod.find_fun. induction es as [|e es IH]; cbn [filter find].
    - destruct (sig_eqb s types); reflexivity.
    - destruct (sig_eqb_spec types (e_sig cls e)) as [->|N]; cbn [negb].
      + rewrite IH. destruct (sig_eqb s (e_sig cls e)); reflexivity.
      + cbn [find]. destruct (sig_eqb_spec s (e_sig cls e)) as [->|N'].
        * destruct (sig_eqb_spec (e_sig cls e) types); [congruence|reflexivity].
        * exact IH.
  Qed.

  Lemma delitem_find : forall t types s, find_fun (methods cls (snd (delitem t types))) s = if sig_eqb s types then None else find_fun (methods cls t) s.
  Proof.
    intros t types s. unfold Multimethod.delitem. destruct (existsb _ (methods cls t)) eqn:E; cbn [snd methods].
    - rewrite delete_loop_find. cbn [app]. apply find_fun_filter.
    - destruct (sig_eqb_spec s types) as [->|]; [|reflexivity]. destruct (find_fun (methods cls t) types) as [f|] eqn:F; [|reflexivity].
      apply find_fun_some in F. destruct F as (e & He & Hs & _).
      assert (K : existsb (fun e => sig_eqb types (e_sig cls e)) (methods cls t) = true) by (apply existsb_exists; exists e; split; [exact He|rewrite Hs; apply sig_eqb_refl]).
      congruence.
  Qed.

  Lemma call_methods : forall t types, methods cls (snd (call cls cls_eqb sub mro object t types)) = methods cls t.
  Proof.
    intros t types. unfold Multimethod.call. destruct (find_fun _ _); [reflexivity|]. destruct (find _ _); [reflexivity|]. destruct (resolve _ _); reflexivity.
  Qed.

  Lemma run_find_from : forall evs t s, find_fun (methods cls (fold_left step evs t)) s = live evs s (find_fun (methods cls t) s).
  Proof.
    induction evs as [|ev evs IH]; intros t s; [reflexivity|]. cbn [fold_left]. rewrite IH. destruct ev as [s' f|s'|types]; cbn [Multimethod.step Spec.Multimethod.live].
    - rewrite setitem_find. reflexivity.
    - rewrite delitem_find. reflexivity.
    - rewrite call_methods. reflexivity.
  Qed.
  Lemma run_find : forall evs s, find_fun (methods cls (run evs)) s = live evs s None.
  Proof. intros evs s. unfold Multimethod.run. rewrite run_find_from. reflexivity. Qed.

  (* ---------------------------------------------------------------- *)
  (** *** The cache is invisible *)

  Definition cache_ok (t : table cls) : Prop :=
    forall p, In p (cached cls t) -> resolve (methods cls t) (fst p) = Ok (snd p).

  Lemma step_cache_ok : forall t ev, cache_ok t -> cache_ok (step t ev).
  Proof.
    intros t ev H. destruct ev as [s f|s|types]; cbn [Multimethod.step].
    - unfold Multimethod.setitem. cbv zeta. destruct (existsb _ _); intros p [].
    - unfold Multimethod.delitem. destruct (existsb _ _); intros p [].
    - unfold Multimethod.call. destruct (find_fun _ _); [exact H|]. destruct (find _ _); [exact H|]. destruct (resolve (methods cls t) types) as [f|e] eqn:E; [|exact H].
      intros p Hp. cbn [snd cached methods] in *. apply in_app_or in Hp. destruct Hp as [Hp|[<-|[]]]; [exact (H p Hp)|exact E].
  Qed.
  Lemma run_cache_ok : forall evs t, cache_ok t -> cache_ok (fold_left step evs t).
  Proof. induction evs as [|ev evs IH]; intros t H; [exact H|]. cbn [fold_left]. apply IH. apply step_cache_ok. exact H. Qed.

  (** Answer = registered function, or resolution on the registered methods. *)
  Lemma answer_spec : forall evs types, answer evs types =
      match live evs types None with Some f => Ok f | None => resolve (methods cls (run evs)) types end.
  Proof.
    intros evs types. unfold Multimethod.answer, Multimethod.call. rewrite run_find. destruct (live evs types None); [reflexivity|].
    assert (C : cache_ok (run evs)) by (apply run_cache_ok; intros p []).
    destruct (find _ (cached cls (run evs))) as [p|] eqn:F.
    - apply find_some in F. destruct F as (Hp & E). destruct (sig_eqb_spec types (fst p)) as [->|]; [|discriminate]. symmetry. exact (C p Hp).
    - destruct (resolve _ types); reflexivity.
  Qed.

  Definition not_call (ev : event cls) : bool := match ev with Call _ _ => false | _ => true end.
  Lemma methods_step : forall t t' ev, methods cls t = methods cls t' -> methods cls (step t ev) = methods cls (step t' ev).
  Proof.
    intros t t' ev H. destruct ev as [s f|s|types]; cbn [Multimethod.step].
    - unfold Multimethod.setitem. cbv zeta. rewrite H. destruct (existsb _ _); reflexivity.
    - unfold Multimethod.delitem. rewrite H. destruct (existsb _ _); reflexivity.
    - rewrite !call_methods. exact H.
  Qed.
  Lemma methods_no_calls : forall evs t t', methods cls t = methods cls t' ->
      methods cls (fold_left step evs t) = methods cls (fold_left step (filter not_call evs) t').
  Proof.
    induction evs as [|ev evs IH]; intros t t' H; [exact H|]. destruct ev as [s f|s|types]; cbn [filter not_call fold_left].
    - apply IH. apply (methods_step t t' (Register cls s f)). exact H.
    - apply IH. apply (methods_step t t' (Delete cls s)). exact H.
    - apply IH. cbn [Multimethod.step]. rewrite call_methods. exact H.
  Qed.
  Lemma live_no_calls : forall evs s now, live (filter not_call evs) s now = live evs s now.
  Proof. induction evs as [|ev evs IH]; intros s now; [reflexivity|]. destruct ev; cbn [filter not_call Spec.Multimethod.live]; apply IH. Qed.

  Lemma cache_invisible : forall evs types, answer evs types = answer (filter not_call evs) types.
  Proof.
    intros evs types. rewrite !answer_spec, live_no_calls. destruct (live evs types None); [reflexivity|].
    unfold Multimethod.run. rewrite (methods_no_calls evs (Table cls [] []) (Table cls [] []) eq_refl). reflexivity.
  Qed.

  (* ---------------------------------------------------------------- *)
  (** *** Applicability *)

  Lemma parents_in : forall es types k, In k (parents es types) -> exists e, In e es /\ e_sig cls e = k /\ sig_lt k types = true.
  Proof.
    intros es types k H. unfold Multimethod.parents in H. apply in_map_iff in H. destruct H as (e & <- & H). apply filter_In in H. destruct H as (H & _).
    apply filter_In in H. destruct H as (H1 & H2). exists e. repeat split; assumption.
  Qed.

  Lemma resolve_ok : forall es types f, resolve es types = Ok f -> exists k, In k (parents es types) /\ find_fun es k = Some f.
  Proof.
    intros es types f H. unfold Multimethod.resolve in H. destruct (parents es types) as [|k0 ks] eqn:E; [discriminate|]. cbv zeta in H.
    set (m := lex_min _ _) in H. destruct (filter (fun k => nat_list_eqb (distance types k) m) (k0 :: ks)) as [|k r] eqn:F; [discriminate|].
    cbn [map] in H. assert (Hk : In k (k0 :: ks)) by (apply (filter_In (fun k => nat_list_eqb (distance types k) m)); rewrite F; left; reflexivity).
    destruct (forallb _ _); [|discriminate]. injection H as H. exists k. split; [exact Hk|].
    rewrite <- E in Hk. destruct (parents_in es types k Hk) as (e & He & <- & _). destruct (find_fun_in es e He) as (g & G). rewrite G in *. congruence.
  Qed.

  Lemma answer_applicable : forall evs types f, (forall a, sub a a = true) -> answer evs types = Ok f -> exists s, registered cls cls_eqb evs s f /\ accepts s types.
  Proof.
    intros evs types f HR H. rewrite answer_spec in H. destruct (live evs types None) as [g|] eqn:L.
    - injection H as <-. exists types. split; [exact L|]. split; [lia|]. intros i a b Ha Hb. rewrite Ha in Hb. injection Hb as <-. apply HR.
    - destruct (resolve_ok _ _ _ H) as (k & Hk & F). exists k. split; [unfold Spec.Multimethod.registered; rewrite <- run_find; exact F|].
      destruct (parents_in _ _ _ Hk) as (e & _ & _ & LT). apply sig_lt_spec in LT. apply LT.
  Qed.

  Lemma answer_exact : forall evs types f, registered cls cls_eqb evs types f -> answer evs types = Ok f.
  Proof. intros evs types f H. rewrite answer_spec. unfold Spec.Multimethod.registered in H. rewrite H. reflexivity. Qed.

  Lemma answer_none : forall evs types, (forall a, sub a a = true) -> (forall s f, registered cls cls_eqb evs s f -> ~ accepts s types) -> answer evs types = Err dispatch_error.
  Proof.
    intros evs types HR H. destruct (answer evs types) as [f|e] eqn:A.
    - destruct (answer_applicable evs types f HR A) as (s & R0 & AC). destruct (H s f R0 AC).
    - rewrite answer_spec in A. destruct (live evs types None); [discriminate|]. unfold Multimethod.resolve in A. destruct (parents _ types) as [|k0 ks]; [congruence|].
      cbv zeta in A. destruct (map _ _) as [|f r]; [congruence|]. destruct (forallb _ _); [discriminate|congruence].
  Qed.

  (** The candidate is the answer as soon as the other candidates are further. *)
  Lemma resolve_unique : forall es types M f, In M (parents es types) -> find_fun es M = Some f ->
      (forall k, In k (parents es types) -> k <> M -> lex_ltb (distance types M) (distance types k) = true) -> resolve es types = Ok f.
  Proof.
    intros es types M f HM HF HD. unfold Multimethod.resolve. destruct (parents es types) as [|k0 ks]; [destruct HM|]. cbv zeta.
    assert (Q : forall k, In k (k0 :: ks) -> distance types k = distance types M \/ lex_ltb (distance types M) (distance types k) = true).
    { intros k Hk. destruct (sig_eqb_spec k M) as [->|N]; [left; reflexivity|right; exact (HD k Hk N)]. }
    rewrite (lex_min_is (distance types M)).
    - assert (AM : forall k, In k (filter (fun k => nat_list_eqb (distance types k) (distance types M)) (k0 :: ks)) -> k = M).
      { intros k Hk. apply filter_In in Hk. destruct Hk as (Hk & E). destruct (nat_list_eqb_spec (distance types k) (distance types M)) as [E'|]; [|discriminate].
        destruct (sig_eqb_spec k M) as [|N]; [assumption|]. pose proof (HD k Hk N) as L. rewrite E', lex_irrefl in L. discriminate. }
      assert (IM : In M (filter (fun k => nat_list_eqb (distance types k) (distance types M)) (k0 :: ks))).
      { apply filter_In. split; [exact HM|]. destruct (nat_list_eqb_spec (distance types M) (distance types M)); congruence. }
      destruct (filter _ (k0 :: ks)) as [|k r]; [destruct IM|]. cbn [map]. rewrite (AM k (or_introl eq_refl)), HF.
      assert (FB : forallb (Nat.eqb f) (map (fun k => match find_fun es k with Some f => f | None => 0%nat end) r) = true).
      { apply forallb_forall. intros x Hx. apply in_map_iff in Hx. destruct Hx as (k' & <- & Hk'). rewrite (AM k' (or_intror Hk')), HF. apply Nat.eqb_refl. }
      rewrite FB. reflexivity.
    - exact (Q k0 (or_introl eq_refl)).
    - intros x Hx. apply in_map_iff in Hx. destruct Hx as (k & <- & Hk). exact (Q k (or_intror Hk)).
    - destruct HM as [->|HM]; [left; reflexivity|right; apply in_map; exact HM].
  Qed.

  (* ---------------------------------------------------------------- *)
  (** *** The parents attribute holds strictly more general signatures *)

  Definition sound (es : list (entry cls)) : Prop := forall e p, In e es -> In p (e_parents cls e) -> sig_lt p (e_sig cls e) = true.

  Lemma parents_lt : forall es types p, In p (parents es types) -> sig_lt p types = true.
  Proof. intros es types p H. destruct (parents_in es types p H) as (e & _ & _ & K). exact K. Qed.

  Lemma setitem_sound : forall t types f, sound (methods cls t) -> sound (methods cls (setitem t types f)).
  Proof.
    intros t types f H. unfold Multimethod.setitem. cbv zeta. set (g := fun e : entry cls => if _ && _ then _ else e).
    assert (S1 : sound (map g (methods cls t))).
    { intros e p He Hp. apply in_map_iff in He. destruct He as (e0 & <- & He0). unfold g in *. destruct (sig_lt types (e_sig cls e0)) eqn:L; cbn [andb] in *.
      - destruct (_ || _); [|exact (H e0 p He0 Hp)]. cbn [e_parents e_sig] in *. destruct Hp as [<-|Hp]; [exact L|]. apply filter_In in Hp. exact (H e0 p He0 (proj1 Hp)).
      - exact (H e0 p He0 Hp). }
    destruct (existsb _ (map g (methods cls t))); cbn [methods].
    - intros e p He Hp. apply in_map_iff in He. destruct He as (e0 & <- & He0). destruct (sig_eqb types (e_sig cls e0)); exact (S1 e0 p He0 Hp).
    - intros e p He Hp. apply in_app_or in He. destruct He as [He|[<-|[]]]; [exact (S1 e p He Hp)|]. cbn [e_parents e_sig] in *. exact (parents_lt _ _ _ Hp).
  Qed.

  Lemma delete_loop_sound : forall types todo done, sound (done ++ todo) -> sound (delete_loop cls cls_eqb sub types done todo).
  Proof.
    intros types. induction todo as [|e todo IH]; intros done H; cbn [delete_loop]; [rewrite app_nil_r in H; exact H|].
    apply IH. rewrite <- app_assoc. intros e' p He' Hp. apply in_app_or in He'. destruct He' as [He'|[<-|He']].
    - refine (H e' p _ Hp). apply in_or_app. left. exact He'.
    - destruct (sig_mem types (e_parents cls e)).
      + cbn [e_parents e_sig] in *. exact (parents_lt _ _ _ Hp).
      + refine (H e p _ Hp). apply in_or_app. right. left. reflexivity.
    - refine (H e' p _ Hp). apply in_or_app. right. right. exact He'.
  Qed.

  Lemma step_sound : forall t ev, sound (methods cls t) -> sound (methods cls (step t ev)).
  Proof.
    intros t ev H. destruct ev as [s f|s|types]; cbn [Multimethod.step].
    - apply setitem_sound. exact H.
    - unfold Multimethod.delitem. destruct (existsb _ _); cbn [snd methods]; [|exact H]. apply delete_loop_sound. cbn [app]. intros e p He. apply filter_In in He. exact (H e p (proj1 He)).
    - rewrite call_methods. exact H.
  Qed.
  Lemma run_sound : forall evs, sound (methods cls (run evs)).
  Proof.
    intros evs. unfold Multimethod.run. assert (S0 : sound (methods cls (Table cls [] []))) by (intros e p []).
    revert S0. generalize (Table cls [] []) as t. induction evs as [|ev evs IH]; intros t S0; [exact S0|]. cbn [fold_left]. apply IH. apply step_sound. exact S0.
  Qed.

  (* ---------------------------------------------------------------- *)
  (** *** The most specific method *)

  Hypothesis REFL : forall a, sub a a = true.
  Hypothesis TRANS : forall a b c, sub a b = true -> sub b c = true -> sub a c = true.
  Hypothesis ANTI : forall a b, sub a b = true -> sub b a = true -> a = b.

  Lemma accepts_antisym : forall a b, accepts a b -> accepts b a -> a = b.
  Proof.
    intros a b (L1 & H1) (L2 & H2). assert (L : length a = length b) by lia. clear L1 L2. revert b L H1 H2.
    induction a as [|x a IH]; intros [|y b] L H1 H2; cbn in L; try lia; [reflexivity|]. f_equal.
    - apply ANTI; [exact (H2 0%nat y x eq_refl eq_refl)|exact (H1 0%nat x y eq_refl eq_refl)].
    - apply IH; [lia|intros i; exact (H1 (S i))|intros i; exact (H2 (S i))].
  Qed.
  Lemma accepts_trans : forall a b c, accepts a b -> accepts b c -> accepts a c.
  Proof.
    intros a b c (L1 & H1) (L2 & H2). split; [lia|]. intros i x z Hx Hz.
    destruct (nth_error b i) as [y|] eqn:Hy.
    - exact (TRANS z y x (H2 i y z Hy Hz) (H1 i x y Hx Hy)).
    - apply nth_error_None in Hy. assert (nth_error a i <> None) by congruence. apply nth_error_Some in H. lia.
  Qed.

  Lemma most_specific_candidate : forall evs types M f, most_specific cls cls_eqb sub evs types M f -> M <> types ->
      In M (parents (methods cls (run evs)) types) /\ find_fun (methods cls (run evs)) M = Some f.
  Proof.
    intros evs types M f (RG & AC & BEST) N. assert (F : find_fun (methods cls (run evs)) M = Some f) by (rewrite run_find; exact RG). split; [|exact F].
    apply find_fun_some in F. destruct F as (e & He & Hs & _). unfold Multimethod.parents. apply in_map_iff. exists e. split; [exact Hs|].
    apply filter_In. split.
    - apply filter_In. split; [exact He|]. rewrite Hs. apply sig_lt_spec. split; assumption.
    - apply negb_true_iff. destruct (existsb _ _) eqn:X; [|reflexivity]. exfalso. apply existsb_exists in X. destruct X as (p & Hp & Hm).
      apply filter_In in Hp. destruct Hp as (Hp & HL). apply sig_mem_spec in Hm. rewrite Hs in Hm. apply sig_lt_spec in HL.
      pose proof (run_sound evs p M Hp Hm) as LT. apply sig_lt_spec in LT. destruct LT as (NE & LE).
      destruct (find_fun_in _ p Hp) as (g & G). apply NE. apply accepts_antisym; [exact LE|]. apply (BEST (e_sig cls p) g); [|apply HL].
      unfold Spec.Multimethod.registered. rewrite <- run_find. exact G.
  Qed.

  (** Ordinary classes and signatures of the same length: any history. *)

  Lemma distance_lt : forall n types M k, ordinary cls cls_eqb sub mro -> length M = n -> length k = n -> accepts M types -> accepts k M -> k <> M ->
      lex_ltb (distance types M) (distance types k) = true.
  Proof.
    intros n types M k (O1 & O2). revert types M k. induction n as [|n IH]; intros types M k LM Lk AM AK N.
    - destruct M; [|discriminate]. destruct k; [|discriminate]. congruence.
    - destruct M as [|m M]; [discriminate|]. destruct k as [|c k]; [discriminate|]. destruct types as [|t types]; [destruct AM as (LL & _); cbn in LL; lia|].
      cbn in LM, Lk. unfold Multimethod.distance. cbn [combine map lex_ltb fst snd].
      destruct AM as (LA & AM). destruct AK as (LB & AK).
      pose proof (AM 0%nat m t eq_refl eq_refl) as S1. pose proof (AK 0%nat c m eq_refl eq_refl) as S2.
      assert (I1 : In m (mro t)) by (apply O1; exact S1). assert (I2 : In c (mro t)) by (apply O1; exact (TRANS t m c S1 S2)).
      assert (X : forall z, In z (mro t) -> existsb (cls_eqb z) (mro t) = true) by (intros z Hz; apply existsb_exists; exists z; split; [exact Hz|apply EQB; reflexivity]).
      rewrite (X m I1), (X c I2).
      destruct (cls_eqb m c) eqn:E.
      + apply EQB in E. subst c. rewrite Nat.eqb_refl. apply (IH types M k); [lia|lia| | |congruence].
        * split; [cbn in LA; lia|]. intros i. exact (AM (S i)).
        * split; [cbn in LB; lia|]. intros i. exact (AK (S i)).
      + assert (NE : m <> c) by (intros ->; assert (cls_eqb c c = true) by (apply EQB; reflexivity); congruence).
        pose proof (O2 t m c I1 I2 S2 NE) as L. destruct (Nat.eqb_spec (index cls cls_eqb m (mro t)) (index cls cls_eqb c (mro t))); [lia|]. apply Nat.ltb_lt. exact L.
  Qed.

  Lemma dispatch_ordinary : forall evs types M f n, ordinary cls cls_eqb sub mro -> (forall s g, registered cls cls_eqb evs s g -> length s = n) ->
      most_specific cls cls_eqb sub evs types M f -> answer evs types = Ok f.
  Proof.
    intros evs types M f n O LN MS. destruct (sig_eqb_spec M types) as [->|N]; [apply answer_exact; apply MS|].
    destruct (most_specific_candidate evs types M f MS N) as (IM & FM). rewrite answer_spec.
    destruct MS as (RG & AC & BEST). destruct (live evs types None) as [g|] eqn:L.
    - exfalso. apply N. apply accepts_antisym; [exact AC|]. apply (BEST types g L). split; [lia|]. intros i a b Ha Hb. rewrite Ha in Hb. injection Hb as <-. apply REFL.
    - apply (resolve_unique _ types M f IM FM). intros k Hk NE. destruct (parents_in _ _ _ Hk) as (e & He & Hs & LT). apply sig_lt_spec in LT.
      destruct (find_fun_in _ e He) as (g & G). rewrite Hs, run_find in G.
      apply (distance_lt n types M k O (LN M f RG) (LN k g G) AC (BEST k g G (proj2 LT)) NE).
  Qed.

  (** More general signatures first: signatures of any lengths. *)
  Definition covered (es : list (entry cls)) : Prop :=
    forall e k, In e es -> In k es -> sig_lt (e_sig cls k) (e_sig cls e) = true ->
      exists e', In e' es /\ accepts (e_sig cls e') (e_sig cls e) /\ In (e_sig cls k) (e_parents cls e').

  Lemma setitem_general : forall t types f, sound (methods cls t) -> covered (methods cls t) ->
      (forall e, In e (methods cls t) -> accepts types (e_sig cls e) -> types = e_sig cls e) ->
      covered (methods cls (setitem t types f)) /\
      forall s, In s (map (e_sig cls) (methods cls (setitem t types f))) -> s = types \/ In s (map (e_sig cls) (methods cls t)).
  Proof.
    intros t types f HS HC HG. unfold Multimethod.setitem. cbv zeta. set (g := fun e : entry cls => if _ && _ then _ else e).
    assert (Eg : map g (methods cls t) = methods cls t).
    { rewrite <- (map_id (methods cls t)) at 2. apply map_ext_in. intros e He. unfold g. destruct (sig_lt types (e_sig cls e)) eqn:L; [|reflexivity].
      apply sig_lt_spec in L. destruct L as (NE & AC). destruct NE. exact (HG e He AC). }
    rewrite Eg. destruct (existsb _ (methods cls t)) eqn:X; cbn [methods].
    - set (h := fun e : entry cls => if sig_eqb types (e_sig cls e) then Entry cls (e_sig cls e) (e_parents cls e) f else e).
      assert (H1 : forall e, e_sig cls (h e) = e_sig cls e) by (intros e; unfold h; destruct (sig_eqb _ _); reflexivity).
      assert (H2 : forall e, e_parents cls (h e) = e_parents cls e) by (intros e; unfold h; destruct (sig_eqb _ _); reflexivity).
      split.
      + intros e k He Hk L. apply in_map_iff in He. destruct He as (e0 & <- & He). apply in_map_iff in Hk. destruct Hk as (k0 & <- & Hk). fold h in L. rewrite !H1 in L.
        destruct (HC e0 k0 He Hk L) as (e' & I1 & I2 & I3). exists (h e'). split; [apply in_map; exact I1|]. fold h. rewrite !H1, H2. split; assumption.
      + intros s Hs. right. rewrite map_map in Hs. apply in_map_iff in Hs. destruct Hs as (e & <- & He). apply in_map_iff. exists e. split; [symmetry; apply H1|exact He].
    - split.
      + intros e k He Hk L. apply in_app_or in He. apply in_app_or in Hk. destruct He as [He|[<-|[]]].
        * destruct Hk as [Hk|[<-|[]]].
          -- destruct (HC e k He Hk L) as (e' & I1 & I2 & I3). exists e'. split; [apply in_or_app; left; exact I1|split; assumption].
          -- cbn [e_sig] in L. apply sig_lt_spec in L. destruct L as (NE & AC). destruct NE. exact (HG e He AC).
        * cbn [e_sig] in *. destruct Hk as [Hk|[<-|[]]]; [|cbn [e_sig] in L; apply sig_lt_spec in L; destruct L; congruence].
          destruct (sig_mem (e_sig cls k) (parents (methods cls t) types)) eqn:SM.
          -- apply sig_mem_spec in SM. exists (Entry cls types (parents (methods cls t) types) f). split; [apply in_or_app; right; left; reflexivity|]. cbn [e_sig e_parents].
             split; [|exact SM]. split; [lia|]. intros i a b Ha Hb. rewrite Ha in Hb. injection Hb as <-. apply REFL.
          -- destruct (existsb (fun p => sig_mem (e_sig cls k) (e_parents cls p)) (filter (fun e => sig_lt (e_sig cls e) types) (methods cls t))) eqn:EX.
             ++ apply existsb_exists in EX. destruct EX as (p & Hp & Hm). apply filter_In in Hp. destruct Hp as (Hp & HL). apply sig_lt_spec in HL.
                exists p. split; [apply in_or_app; left; exact Hp|]. split; [apply HL|apply sig_mem_spec; exact Hm].
             ++ exfalso. assert (K : In (e_sig cls k) (parents (methods cls t) types)).
                { unfold Multimethod.parents. apply in_map_iff. exists k. split; [reflexivity|]. apply filter_In. split; [apply filter_In; split; [exact Hk|exact L]|]. rewrite EX. reflexivity. }
                apply sig_mem_spec in K. congruence.
      + intros s Hs. rewrite map_app in Hs. apply in_app_or in Hs. destruct Hs as [Hs|[<-|[]]]; [right; exact Hs|left; reflexivity].
  Qed.

  Lemma run_covered : forall evs t seen, general_first cls sub evs seen -> sound (methods cls t) -> covered (methods cls t) -> (forall s, In s (map (e_sig cls) (methods cls t)) -> In s seen) ->
      covered (methods cls (fold_left step evs t)).
  Proof.
    induction evs as [|ev evs IH]; intros t seen HG HS HC HI; [exact HC|]. cbn [fold_left]. destruct ev as [s f|s|types]; cbn [Spec.Multimethod.general_first] in HG.
    - destruct HG as (H1 & H2).
      destruct (setitem_general t s f HS HC) as (C' & I').
      { intros e He AC. apply H1; [|exact AC]. apply HI. apply in_map. exact He. }
      apply (IH _ (s :: seen) H2); [apply setitem_sound; exact HS|exact C'|]. intros s' Hs'. destruct (I' s' Hs') as [->|K]; [left; reflexivity|right; apply HI; exact K].
    - destruct HG.
    - cbn [Multimethod.step]. apply (IH _ seen HG); rewrite call_methods; assumption.
  Qed.

  Lemma dispatch_general_first : forall evs types M f, general_first cls sub evs [] -> most_specific cls cls_eqb sub evs types M f -> answer evs types = Ok f.
  Proof.
    intros evs types M f GF MS. destruct (sig_eqb_spec M types) as [->|N]; [apply answer_exact; apply MS|].
    destruct (most_specific_candidate evs types M f MS N) as (IM & FM). rewrite answer_spec.
    assert (CV : covered (methods cls (run evs))) by (apply (run_covered evs (Table cls [] []) [] GF); [intros e p []|intros e k []|intros s []]).
    destruct MS as (RG & AC & BEST). destruct (live evs types None) as [g|] eqn:L.
    - exfalso. apply N. apply accepts_antisym; [exact AC|]. apply (BEST types g L). split; [lia|]. intros i a b Ha Hb. rewrite Ha in Hb. injection Hb as <-. apply REFL.
    - apply (resolve_unique _ types M f IM FM). intros k Hk NE. exfalso.
      destruct (parents_in _ _ _ Hk) as (ek & Hek & Hsk & LTk). apply sig_lt_spec in LTk. destruct (find_fun_in _ ek Hek) as (g & G). rewrite Hsk, run_find in G.
      pose proof (BEST k g G (proj2 LTk)) as KM. apply find_fun_some in FM. destruct FM as (eM & HeM & HsM & _).
      destruct (CV eM ek HeM Hek) as (e' & He' & A' & P'); [rewrite HsM, Hsk; apply sig_lt_spec; split; assumption|].
      unfold Multimethod.parents in Hk. apply in_map_iff in Hk. destruct Hk as (e2 & Hs2 & Hk). apply filter_In in Hk. destruct Hk as (_ & NX).
      apply negb_true_iff in NX. assert (X : existsb (fun p => sig_mem (e_sig cls e2) (e_parents cls p)) (filter (fun e => sig_lt (e_sig cls e) types) (methods cls (run evs))) = true).
      { apply existsb_exists. exists e'. split.
        - apply filter_In. split; [exact He'|]. apply sig_lt_spec. rewrite HsM in A'. pose proof (accepts_trans _ _ _ A' AC) as AT. split; [|exact AT].
          intros EQ. destruct (find_fun_in _ e' He') as (g' & G'). rewrite EQ, run_find in G'. congruence.
        - apply sig_mem_spec. rewrite Hs2, <- Hsk. exact P'. }
      congruence.
  Qed.
End P.
