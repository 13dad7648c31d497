(** Proofs about the dispatch of [ergodic_distribution]. *)
From Coq Require Import String List Arith Bool Lia.
From Verif.Base Require Import Prelude.
From Verif.Model Require Import Multimethod ErgodicDispatch Discretize.
From Verif.Spec Require Import Multimethod ErgodicDispatch Discretize.
From Verif.Proofs Require Import MultimethodProofs DiscretizeKinds.
Import ListNotations.
Local Open Scope string_scope.

Section D.
  Variable cls : Type.
  Variable cls_eqb : cls -> cls -> bool.
  Variable sub : cls -> cls -> bool.
  Variable mro : cls -> list cls.
  Variable object : cls.
  Variables model rule unstructured uniform chain empty cartesian law : cls.
  Variable obj : Type.
  Variable class_of : obj -> cls.
  Variables exo_grid endo_grid dprocess : obj -> obj.
  Hypothesis H : hierarchy cls cls_eqb sub.
  Let EQB := proj1 H.
  Let REFL := proj1 (proj2 H).
  Let TRANS := proj1 (proj2 (proj2 H)).
  Let ANTI := proj2 (proj2 (proj2 H)).

  Notation sig_rule := (sig_rule cls model rule).
  Notation sig_chain := (sig_chain cls model rule unstructured uniform chain).
  Notation sig_law := (sig_law cls model rule empty cartesian law).
  Notation regs := (registrations cls model rule unstructured uniform chain empty cartesian law).
  Notation invoke := (invoke cls cls_eqb sub mro object obj class_of exo_grid endo_grid dprocess).
  Notation after := (after cls cls_eqb sub mro object model rule unstructured uniform chain empty cartesian law obj class_of exo_grid endo_grid dprocess).
  Notation ergodic_call := (ergodic_call cls cls_eqb sub mro object model rule unstructured uniform chain empty cartesian law obj class_of exo_grid endo_grid dprocess).
  Notation inst := (instances sub class_of).
  Notation accepts := (accepts cls sub).
  Notation run := (run cls cls_eqb sub mro object).
  Notation answer := (answer cls cls_eqb sub mro object).

  Lemma instances_accepts : forall cs args, inst cs args <-> accepts cs (map class_of args).
  Proof.
    induction cs as [|c cs IH]; intros args.
    - split; [|reflexivity]. intros _. split; [cbn; lia|]. intros [|i] a b Ha; discriminate.
    - destruct args as [|a args]; cbn [instances map].
      + split; [intros []|]. intros (L & _). cbn in L. lia.
      + rewrite IH. split.
        * intros (Hs & L & K). split; [cbn; lia|]. intros [|i] u v Hu Hv; cbn in Hu, Hv; [injection Hu as <-; injection Hv as <-; exact Hs|exact (K i u v Hu Hv)].
        * intros (L & K). split; [exact (K 0%nat c (class_of a) eq_refl eq_refl)|]. split; [cbn in L; lia|]. intros i u v. exact (K (S i) u v).
  Qed.

  Definition history (cs : list (list cls)) : list (event cls) := (regs ++ map (Call cls) cs)%list.
  Lemma run_history_call : forall cs types, snd (call cls cls_eqb sub mro object (run (history cs)) types) = run (history (cs ++ [types])).
  Proof.
    intros cs types. unfold history, Multimethod.run. rewrite map_app, app_assoc, (fold_left_app _ _ (map (Call cls) [types])). reflexivity.
  Qed.
  Lemma invoke_history : forall fuel cs args kws, exists cs', snd (invoke fuel (run (history cs)) args kws) = run (history cs').
  Proof.
    induction fuel as [|fuel IH]; intros cs args kws; [exists cs; reflexivity|]. cbn [ErgodicDispatch.invoke].
    pose proof (run_history_call cs (map class_of args)) as S1.
    destruct (call cls cls_eqb sub mro object (run (history cs)) (map class_of args)) as [[f|e] t'] eqn:C; cbn [snd] in S1; subst t';
      [|exists (cs ++ [map class_of args])%list; reflexivity].
    destruct f as [|[|[|f]]]; [destruct (binds _ _ _ _)|destruct (binds _ _ _ _)|destruct (binds _ _ _ _)|destruct (binds _ _ _ _)]; try (exists (cs ++ [map class_of args])%list; reflexivity).
    destruct args as [|m [|d [|x r]]]; try (eexists; reflexivity). apply IH.
  Qed.
  Lemma after_history : forall fuel hist, exists cs, after fuel hist = run (history cs).
  Proof.
    intros fuel hist. unfold ErgodicDispatch.after.
    assert (G : forall hist cs, exists cs', fold_left (fun t c => snd (invoke fuel t (fst c) (snd c))) hist (run (history cs)) = run (history cs')).
    { induction hist0 as [|c r IH]; intros cs; [exists cs; reflexivity|]. cbn [fold_left].
      destruct (invoke_history fuel cs (fst c) (snd c)) as (cs' & ->). apply IH. }
    destruct (G hist []) as (cs' & E). exists cs'. rewrite <- E. f_equal. 
  Qed.

  Lemma live_calls : forall cs s now, live cls cls_eqb (map (Call cls) cs) s now = now.
  Proof. induction cs as [|c cs IH]; intros s now; [reflexivity|]. cbn. apply IH. Qed.
  Lemma live_app : forall a b s now, live cls cls_eqb (a ++ b) s now = live cls cls_eqb b s (live cls cls_eqb a s now).
  Proof. induction a as [|[s' f|s'|t] a IH]; intros b s now; cbn; try rewrite IH; reflexivity. Qed.
  Lemma registered_history : forall cs s f, registered cls cls_eqb (history cs) s f <-> registered cls cls_eqb regs s f.
  Proof. intros cs s f. unfold registered, history. rewrite live_app, live_calls. reflexivity. Qed.

  Lemma answer_history : forall cs types, answer (history cs) types = answer regs types.
  Proof.
    intros cs types. rewrite (cache_invisible cls cls_eqb sub mro object EQB (history cs)).
    unfold history. rewrite filter_app. replace (filter _ (map (Call cls) cs)) with (@nil (event cls)); [rewrite app_nil_r; reflexivity|].
    induction cs as [|c cs IH]; [reflexivity|exact IH].
  Qed.

  (** Answers do not depend on the history. *)
  Lemma invoke_same : forall fuel cs cs' args kws, fst (invoke fuel (run (history cs)) args kws) = fst (invoke fuel (run (history cs')) args kws).
  Proof.
    induction fuel as [|fuel IH]; intros cs cs' args kws; [reflexivity|]. cbn [ErgodicDispatch.invoke].
    pose proof (run_history_call cs (map class_of args)) as S1. pose proof (run_history_call cs' (map class_of args)) as S2.
    pose proof (answer_history cs (map class_of args)) as A1. pose proof (answer_history cs' (map class_of args)) as A2. unfold Multimethod.answer in A1, A2.
    destruct (call cls cls_eqb sub mro object (run (history cs)) (map class_of args)) as [r1 t1].
    destruct (call cls cls_eqb sub mro object (run (history cs')) (map class_of args)) as [r2 t2]. cbn [fst snd] in *. subst t1 t2. rewrite <- A1 in A2. subst r2.
    destruct r1 as [f|e]; [|reflexivity].
    destruct f as [|[|[|f]]]; [destruct (binds _ _ _ _)|destruct (binds _ _ _ _)|destruct (binds _ _ _ _)|destruct (binds _ _ _ _)]; try reflexivity.
    destruct args as [|m [|d [|x r]]]; try reflexivity. apply IH.
  Qed.
  Lemma history_invisible : forall fuel hist args kws, ergodic_call fuel hist args kws = ergodic_call fuel [] args kws.
  Proof.
    intros fuel hist args kws. unfold ErgodicDispatch.ergodic_call. destruct (after_history fuel hist) as (cs & ->).
    exact (invoke_same fuel cs [] args kws).
  Qed.

  (* ---------------------------------------------------------------- *)
  Hypothesis NL : ~ accepts sig_law sig_chain.

  Lemma only_regs : forall s f, registered cls cls_eqb regs s f -> (s = sig_rule /\ f = 1%nat) \/ (s = sig_chain /\ f = 2%nat) \/ (s = sig_law /\ f = 3%nat).
  Proof.
    intros s f. unfold registered, registrations. cbn [live].
    destruct (sig_eqb_spec cls cls_eqb EQB s sig_law) as [->|]; [intros K; injection K as <-; tauto|].
    destruct (sig_eqb_spec cls cls_eqb EQB s sig_chain) as [->|]; [intros K; injection K as <-; tauto|].
    destruct (sig_eqb_spec cls cls_eqb EQB s sig_rule) as [->|]; [intros K; injection K as <-; tauto|]. discriminate.
  Qed.
  Lemma accepts_prefix : forall a b types, accepts (a ++ b) types -> accepts a types.
  Proof.
    intros a b types (L & K). split; [rewrite app_length in L; lia|]. intros i x y Hx Hy. apply (K i x y); [|exact Hy].
    rewrite nth_error_app1; [exact Hx|]. apply nth_error_Some. congruence.
  Qed.
  Lemma accepts_self : forall a b, accepts a (a ++ b).
  Proof.
    intros a b. split; [rewrite app_length; lia|]. intros i x y Hx Hy. rewrite nth_error_app1 in Hy; [|apply nth_error_Some; congruence].
    rewrite Hx in Hy. injection Hy as <-. apply REFL.
  Qed.
  Lemma reg_rule : registered cls cls_eqb regs sig_rule 1.
  Proof.
    unfold registered, registrations. cbn [live]. destruct (sig_eqb_spec cls cls_eqb EQB sig_rule sig_law) as [E|_]; [discriminate E|].
    destruct (sig_eqb_spec cls cls_eqb EQB sig_rule sig_chain) as [E|_]; [discriminate E|]. rewrite (sig_eqb_refl cls cls_eqb EQB). reflexivity.
  Qed.
  Lemma chain_not_law : sig_chain <> sig_law.
  Proof. intros E. apply NL. rewrite E. rewrite <- (app_nil_r sig_law) at 2. apply accepts_self. Qed.
  Lemma reg_chain : registered cls cls_eqb regs sig_chain 2.
  Proof.
    unfold registered, registrations. cbn [live]. destruct (sig_eqb_spec cls cls_eqb EQB sig_chain sig_law) as [E|_]; [destruct (chain_not_law E)|].
    rewrite (sig_eqb_refl cls cls_eqb EQB). reflexivity.
  Qed.
  Lemma reg_law : registered cls cls_eqb regs sig_law 3.
  Proof. unfold registered, registrations. cbn [live]. rewrite (sig_eqb_refl cls cls_eqb EQB). reflexivity. Qed.
  Lemma regs_general_first : general_first cls sub regs [].
  Proof.
    cbn. split; [intros s' []|]. split.
    - intros s' [<-|[]] (L & _). cbn in L. lia.
    - split; [|exact I]. intros s' [<-|[<-|[]]] A; [destruct (NL A)|]. destruct A as (L & _). cbn in L. lia.
  Qed.

  Lemma answer_chain : forall types, accepts sig_chain types -> ~ accepts sig_law types -> answer regs types = Ok 2%nat.
  Proof.
    intros types A N. apply (dispatch_general_first cls cls_eqb sub mro object EQB REFL TRANS ANTI regs types sig_chain 2 regs_general_first).
    split; [exact reg_chain|]. split; [exact A|]. intros s f R As. destruct (only_regs s f R) as [(-> & ->)|[(-> & ->)|(-> & ->)]].
    - apply (accepts_self sig_rule [unstructured; uniform; chain]).
    - rewrite <- (app_nil_r sig_chain) at 2. apply accepts_self.
    - destruct (N As).
  Qed.
  Lemma answer_law : forall types, accepts sig_law types -> ~ accepts sig_chain types -> answer regs types = Ok 3%nat.
  Proof.
    intros types A N. apply (dispatch_general_first cls cls_eqb sub mro object EQB REFL TRANS ANTI regs types sig_law 3 regs_general_first).
    split; [exact reg_law|]. split; [exact A|]. intros s f R As. destruct (only_regs s f R) as [(-> & ->)|[(-> & ->)|(-> & ->)]].
    - apply (accepts_self sig_rule [empty; cartesian; law]).
    - destruct (N As).
    - rewrite <- (app_nil_r sig_law) at 2. apply accepts_self.
  Qed.
  Lemma answer_rule : forall types, accepts sig_rule types -> ~ accepts sig_chain types -> ~ accepts sig_law types -> answer regs types = Ok 1%nat.
  Proof.
    intros types A N N'. apply (dispatch_general_first cls cls_eqb sub mro object EQB REFL TRANS ANTI regs types sig_rule 1 regs_general_first).
    split; [exact reg_rule|]. split; [exact A|]. intros s f R As. destruct (only_regs s f R) as [(-> & ->)|[(-> & ->)|(-> & ->)]].
    - rewrite <- (app_nil_r sig_rule) at 2. apply accepts_self.
    - destruct (N As).
    - destruct (N' As).
  Qed.
  Lemma answer_nothing : forall types, ~ accepts sig_rule types -> answer regs types = Err dispatch_error.
  Proof.
    intros types N. apply (answer_none cls cls_eqb sub mro object EQB regs types REFL). intros s f R As.
    destruct (only_regs s f R) as [(-> & ->)|[(-> & ->)|(-> & ->)]]; [exact (N As)| |]; apply N.
    - apply (accepts_prefix sig_rule [unstructured; uniform; chain]). exact As.
    - apply (accepts_prefix sig_rule [empty; cartesian; law]). exact As.
  Qed.

  Lemma binds_grid : forall (args : list obj) (kws : list (string * obj)), (5 <= length args)%nat -> NoDup (map fst kws) ->
    binds grid_params ["compute_mu"] (length args) (map fst kws) = true <-> complete args kws.
  Proof.
    intros args kws L ND. unfold complete.
    destruct args as [|a1 [|a2 [|a3 [|a4 [|a5 [|a6 [|a7 r]]]]]]]; try (cbn in L; lia); unfold binds; cbn [length app grid_params Nat.leb skipn andb forallb].
    - destruct kws as [|[k v] kws]; [cbn; tauto|]. cbn [map fst forallb existsb]. rewrite !orb_false_r, andb_true_r, andb_true_iff.
      split.
      + intros (E & F). apply String.eqb_eq in E. left. split; [reflexivity|]. right. exists v. subst k. destruct kws as [|[k' v'] kws]; [reflexivity|].
        cbn in F. rewrite orb_false_r, andb_true_iff in F. destruct F as (F & _). apply String.eqb_eq in F. subst k'. cbn in ND. inversion ND as [|? ? NI]. destruct NI. left; reflexivity.
      + intros [(_ & [E|(w & E)])|(E & _)]; [discriminate E| |discriminate E]. injection E as -> _ ->. split; [apply String.eqb_refl|reflexivity].
    - destruct kws as [|[k v] kws]; cbn; split; try tauto; try discriminate. intros [(E & _)|(_ & E)]; discriminate E.
    - split; [discriminate|]. intros [(E & _)|(E & _)]; cbn in E; lia.
  Qed.
  Lemma binds_rule : forall (args : list obj) (kws : list (string * obj)), (2 <= length args)%nat ->
    binds ["model"; "dr"] [] (length args) (map fst kws) = true <-> length args = 2%nat /\ kws = [].
  Proof.
    intros args kws L. destruct args as [|a1 [|a2 [|a3 r]]]; try (cbn in L; lia); unfold binds; cbn [length app Nat.leb skipn andb forallb].
    - destruct kws as [|[k v] kws]; cbn; split; try tauto; try discriminate. intros (_ & E); discriminate E.
    - split; [discriminate|]. intros (E & _). discriminate E.
  Qed.

  Lemma invoke_answer : forall fuel cs args kws r, answer regs (map class_of args) = r ->
    exists cs', invoke (S fuel) (run (history cs)) args kws =
      match r with
      | Err e => (Err e, run (history cs'))
      | Ok 1%nat => if binds ["model"; "dr"] [] (length args) (map fst kws) then
                      match args with
                      | [m; dr] => invoke fuel (run (history cs')) [m; dr; exo_grid dr; endo_grid dr; dprocess dr] []
                      | _ => (Err ExcType, run (history cs'))
                      end
                    else (Err ExcType, run (history cs'))
      | Ok 2%nat => if binds grid_params ["compute_mu"] (length args) (map fst kws) then (Ok (ForChain obj args kws), run (history cs')) else (Err ExcType, run (history cs'))
      | Ok _ => if binds grid_params ["compute_mu"] (length args) (map fst kws) then (Ok (ForLaw obj args kws), run (history cs')) else (Err ExcType, run (history cs'))
      end.
  Proof.
    intros fuel cs args kws r A. exists (cs ++ [map class_of args])%list. cbn [ErgodicDispatch.invoke].
    pose proof (run_history_call cs (map class_of args)) as S1. pose proof (answer_history cs (map class_of args)) as A1. unfold Multimethod.answer in A1.
    destruct (call cls cls_eqb sub mro object (run (history cs)) (map class_of args)) as [r1 t1]. cbn [fst snd] in *. subst t1 r1. fold (answer regs (map class_of args)). rewrite A.
    destruct r as [[|[|[|f]]]|e]; reflexivity.
  Qed.

  Lemma accepts_length : forall s types, accepts s types -> (length s <= length types)%nat.
  Proof. intros s types (L & _). exact L. Qed.

  Lemma for_chains : forall fuel hist args kws, NoDup (map fst kws) -> inst sig_chain args -> ~ inst sig_law args ->
    (complete args kws -> ergodic_call (S fuel) hist args kws = Ok (ForChain obj args kws)) /\
    (~ complete args kws -> ergodic_call (S fuel) hist args kws = Err ExcType).
  Proof.
    intros fuel hist args kws ND A N. rewrite instances_accepts in A, N. unfold ErgodicDispatch.ergodic_call. destruct (after_history (S fuel) hist) as (cs & ->).
    destruct (invoke_answer fuel cs args kws _ (answer_chain _ A N)) as (cs' & ->).
    assert (L : (5 <= length args)%nat) by (pose proof (accepts_length _ _ A) as L; rewrite map_length in L; exact L).
    pose proof (binds_grid args kws L ND) as B. destruct (binds grid_params _ _ _); split; intros C; try reflexivity.
    - destruct C. apply B. reflexivity.
    - apply B in C. discriminate C.
  Qed.
  Lemma for_laws : forall fuel hist args kws, NoDup (map fst kws) -> inst sig_law args -> ~ inst sig_chain args ->
    (complete args kws -> ergodic_call (S fuel) hist args kws = Ok (ForLaw obj args kws)) /\
    (~ complete args kws -> ergodic_call (S fuel) hist args kws = Err ExcType).
  Proof.
    intros fuel hist args kws ND A N. rewrite instances_accepts in A, N. unfold ErgodicDispatch.ergodic_call. destruct (after_history (S fuel) hist) as (cs & ->).
    destruct (invoke_answer fuel cs args kws _ (answer_law _ A N)) as (cs' & ->).
    assert (L : (5 <= length args)%nat) by (pose proof (accepts_length _ _ A) as L; rewrite map_length in L; exact L).
    pose proof (binds_grid args kws L ND) as B. destruct (binds grid_params _ _ _); split; intros C; try reflexivity.
    - destruct C. apply B. reflexivity.
    - apply B in C. discriminate C.
  Qed.
  Lemma too_many : forall fuel hist args kws, inst sig_rule args -> ~ inst sig_chain args -> ~ inst sig_law args ->
    (length args > 2)%nat \/ kws <> [] -> ergodic_call (S fuel) hist args kws = Err ExcType.
  Proof.
    intros fuel hist args kws A N N' W. rewrite instances_accepts in A, N, N'. unfold ErgodicDispatch.ergodic_call. destruct (after_history (S fuel) hist) as (cs & ->).
    destruct (invoke_answer fuel cs args kws _ (answer_rule _ A N N')) as (cs' & ->).
    assert (L : (2 <= length args)%nat) by (pose proof (accepts_length _ _ A) as L; rewrite map_length in L; exact L).
    pose proof (binds_rule args kws L) as B. destruct (binds _ _ _ _); [|reflexivity]. destruct (proj1 B eq_refl) as (E1 & E2). destruct W as [W|W]; [lia|contradiction].
  Qed.
  Lemma nothing : forall fuel hist args kws, ~ inst sig_rule args -> ergodic_call (S fuel) hist args kws = Err dispatch_error.
  Proof.
    intros fuel hist args kws N. rewrite instances_accepts in N. unfold ErgodicDispatch.ergodic_call. destruct (after_history (S fuel) hist) as (cs & ->).
    destruct (invoke_answer fuel cs args kws _ (answer_nothing _ N)) as (cs' & ->). reflexivity.
  Qed.
  Lemma two_arguments : forall fuel hist m d, inst sig_rule [m; d] ->
    ergodic_call (S (S fuel)) hist [m; d] [] = ergodic_call (S fuel) hist [m; d; exo_grid d; endo_grid d; dprocess d] [].
  Proof.
    intros fuel hist m d A. pose proof A as A'. rewrite instances_accepts in A'.
    assert (N1 : ~ accepts sig_chain (map class_of [m; d])) by (intros (L & _); cbn in L; lia).
    assert (N2 : ~ accepts sig_law (map class_of [m; d])) by (intros (L & _); cbn in L; lia).
    unfold ErgodicDispatch.ergodic_call. destruct (after_history (S (S fuel)) hist) as (cs & ->). destruct (after_history (S fuel) hist) as (cs2 & ->).
    destruct (invoke_answer (S fuel) cs [m; d] [] _ (answer_rule _ A' N1 N2)) as (cs' & ->). cbn [length map]. unfold binds. cbn [length app Nat.leb skipn andb forallb].
    apply invoke_same.
  Qed.
End D.

(* ------------------------------------------------------------------ *)
(** ** The classes of the package *)

Lemma kls_eqb_spec : forall a b, kls_eqb a b = true <-> a = b.
Proof.
  intros a b. split.
  - destruct a, b; intros E; try discriminate E; try reflexivity. apply Nat.eqb_eq in E. subst. reflexivity.
  - intros ->. destruct b; try reflexivity. apply Nat.eqb_refl.
Qed.
Lemma kls_sub_spec : forall a b, kls_sub a b = true <-> In b (kls_mro a).
Proof.
  intros a b. unfold kls_sub. rewrite existsb_exists. split.
  - intros (x & Hx & E). apply kls_eqb_spec in E. subst. exact Hx.
  - intros Hb. exists b. split; [exact Hb|]. apply kls_eqb_spec. reflexivity.
Qed.
Lemma kls_hierarchy : hierarchy kls kls_eqb kls_sub.
Proof.
  split; [exact kls_eqb_spec|]. split; [|split].
  - intros a. apply kls_sub_spec. destruct a; left; reflexivity.
  - intros a b c. rewrite !kls_sub_spec. destruct a; cbn [kls_mro In]; intros Hb; decompose [or] Hb; clear Hb; subst;
      repeat match goal with K : False |- _ => destruct K end; cbn [kls_mro In]; intros Hc; decompose [or] Hc; clear Hc; subst;
      repeat match goal with K : False |- _ => destruct K end; tauto.
  - intros a b. rewrite !kls_sub_spec. destruct a; cbn [kls_mro In]; intros Hb; decompose [or] Hb; clear Hb; subst;
      repeat match goal with K : False |- _ => destruct K end; try reflexivity; cbn [kls_mro In]; intros Hc; decompose [or] Hc; clear Hc;
      repeat match goal with K : False |- _ => destruct K end; try discriminate; try congruence.
Qed.
Lemma kls_unrelated : ~ accepts kls kls_sub (sig_law kls KModel KRule KEmptyGrid KCartesian KDiscretizedIID) (sig_chain kls KModel KRule KUnstructured KUniform KChain).
Proof. intros (_ & K). specialize (K 2%nat KEmptyGrid KUnstructured eq_refl eq_refl). discriminate K. Qed.

Section Solved.
  Variable obj : Type.
  Variable class_of : obj -> kls.
  Variables exo endo dp : obj -> obj.
  Notation ergodic := (dolo_ergodic class_of exo endo dp).

  (** The two-argument call, for every decision rule. *)
  Lemma rule_cases : forall fuel hist m d, kls_sub (class_of m) KModel = true -> kls_sub (class_of d) KRule = true ->
    ergodic (S (S fuel)) hist [m; d] [] =
    (if kls_sub (class_of (exo d)) KUnstructured && kls_sub (class_of (endo d)) KUniform && kls_sub (class_of (dp d)) KChain
     then Ok (ForChain obj [m; d; exo d; endo d; dp d] [])
     else if kls_sub (class_of (exo d)) KEmptyGrid && kls_sub (class_of (endo d)) KCartesian && kls_sub (class_of (dp d)) KDiscretizedIID
     then Ok (ForLaw obj [m; d; exo d; endo d; dp d] []) else Err ExcType).
  Proof.
    intros fuel hist m d Hm Hd. unfold dolo_ergodic. rewrite (two_arguments _ _ _ _ _ _ _ _ _ _ _ _ _ _ _ _ _ _ kls_hierarchy kls_unrelated) by (cbn; tauto).
    assert (DIS : kls_sub (class_of (exo d)) KUnstructured = true -> kls_sub (class_of (exo d)) KEmptyGrid = true -> False).
    { destruct (class_of (exo d)); cbn; intros; discriminate. }
    assert (CO : complete [m; d; exo d; endo d; dp d] ([] : list (string * obj))) by (left; split; [reflexivity|left; reflexivity]).
    destruct (kls_sub (class_of (exo d)) KUnstructured && kls_sub (class_of (endo d)) KUniform && kls_sub (class_of (dp d)) KChain) eqn:C1.
    - rewrite !andb_true_iff in C1. destruct C1 as ((C1 & C2) & C3).
      apply (for_chains _ _ _ _ _ _ _ _ _ _ _ _ _ _ _ _ _ _ kls_hierarchy kls_unrelated); [constructor|cbn; tauto| |exact CO]. cbn. intros K. apply DIS; tauto.
    - assert (N1 : ~ instances kls_sub class_of (sig_chain kls KModel KRule KUnstructured KUniform KChain) [m; d; exo d; endo d; dp d]).
      { cbn. intros (_ & _ & K1 & K2 & K3 & _). rewrite K1, K2, K3 in C1. discriminate C1. }
      destruct (kls_sub (class_of (exo d)) KEmptyGrid && kls_sub (class_of (endo d)) KCartesian && kls_sub (class_of (dp d)) KDiscretizedIID) eqn:C2.
      + rewrite !andb_true_iff in C2. destruct C2 as ((K1 & K2) & K3).
        apply (for_laws _ _ _ _ _ _ _ _ _ _ _ _ _ _ _ _ _ _ kls_hierarchy kls_unrelated); [constructor|cbn; tauto|exact N1|exact CO].
      + apply (too_many _ _ _ _ _ _ _ _ _ _ _ _ _ _ _ _ _ _ kls_hierarchy kls_unrelated); [cbn; tauto|exact N1| |left; cbn; lia].
        cbn. intros (_ & _ & K1 & K2 & K3 & _). rewrite K1, K2, K3 in C2. discriminate C2.
  Qed.

  (** Without [to], what is returned is a law or a chain. *)
  Lemma default_kind : forall herm c1 c2 x k o, discretize herm c1 c2 x ToOmitted k = Ok o -> (exists l, o = OIid l) \/ (exists c, o = OChain c).
  Proof.
    intros herm c1 c2 x k o E.
    assert (M : forall y, discretize herm c1 c2 y (ToStr "mc") k = Ok o -> exists c, o = OChain c).
    { intros y Ey. destruct (kind_asked herm c1 c2 y "mc" k o Ey) as [K|(_ & _ & K & _)]; [|congruence]. destruct o; try discriminate K. eexists; reflexivity. }
    assert (I : forall y, ~ autoregressive y -> discretize herm c1 c2 y (ToStr "iid") k = Ok o -> exists l, o = OIid l).
    { intros y NA Ey. destruct (kind_asked herm c1 c2 y "iid" k o Ey) as [K|(_ & K & _)]; [|contradiction]. destruct o; try discriminate K. eexists; reflexivity. }
    pose proof (defaults herm c1 c2 x k) as D.
    destruct x; try (rewrite D in E; left; refine (I _ _ E); intros K; exact K); try (rewrite D in E; right; exact (M _ E)).
    - destruct D as (e & D). congruence.
    - destruct (product_target herm c1 c2 l) as (P1 & P2 & P3).
      destruct (existsb markov_or_continuous l) eqn:X1.
      + right. apply (M (PProcs l)). rewrite <- P1; [exact E|]. apply existsb_exists in X1. destruct X1 as (y & Hy & Ky). exists y. split; [exact Hy|]. destruct y; try discriminate Ky; [left|right|right]; exact Logic.I.
      + assert (NM : forall y, In y l -> ~ markov y /\ ~ autoregressive y).
        { intros y Hy. assert (F : markov_or_continuous y = false) by (destruct (markov_or_continuous y) eqn:F; [|reflexivity]; rewrite <- X1; symmetry; apply existsb_exists; exists y; split; assumption).
          destruct y; try discriminate F; split; intros K; exact K. }
        destruct (forallb iid_process_class l) eqn:X2.
        * left. apply (I (PProcs l) (fun K => K)). rewrite <- P2; [exact E|]. intros y Hy. rewrite forallb_forall in X2. specialize (X2 y Hy). destruct y; try discriminate X2; try exact Logic.I. exact X2.
        * destruct (P3 NM) with (k := k) as (e & P); [|congruence]. intros K. assert (forallb iid_process_class l = true); [|congruence].
          apply forallb_forall. intros y Hy. specialize (K y Hy). destruct y; try reflexivity; try exact K; destruct K.
  Qed.

  Lemma solved_rule : forall herm c1 c2 x k o fuel hist m d, discretize herm c1 c2 x ToOmitted k = Ok o ->
    kls_sub (class_of m) KModel = true -> class_of d = KRule ->
    grid_class o (class_of (exo d)) -> class_of (endo d) = KUniform -> process_class o (class_of (dp d)) ->
    ergodic (S (S fuel)) hist [m; d] [] =
      Ok (match o with OIid _ => ForLaw obj [m; d; exo d; endo d; dp d] [] | _ => ForChain obj [m; d; exo d; endo d; dp d] [] end).
  Proof.
    intros herm c1 c2 x k o fuel hist m d E Hm Hd He Hu Hp. rewrite rule_cases; [|exact Hm|rewrite Hd; reflexivity].
    destruct (default_kind herm c1 c2 x k o E) as [(l & ->)|(c & ->)]; cbn in He, Hp; rewrite He, Hu; [destruct Hp as [Hp|Hp]|]; rewrite ?Hp; reflexivity.
  Qed.
End Solved.

Lemma subclasses : forall c,
  (kls_sub c KModel = true <-> c = KModel) /\
  (kls_sub c KRule = true <-> c = KRule) /\
  (kls_sub c KUnstructured = true <-> c = KUnstructured) /\
  (kls_sub c KEmptyGrid = true <-> c = KEmptyGrid) /\
  (kls_sub c KUniform = true <-> c = KUniform) /\
  (kls_sub c KCartesian = true <-> In c [KCartesian; KUniform; KNonUniform]) /\
  (kls_sub c KChain = true <-> c = KChain) /\
  (kls_sub c KDiscretizedIID = true <-> In c [KDiscretizedIID; KDiscreteDistribution; KEquiprobable; KFinite; KBernouilli]).
Proof.
  intros c. destruct c; cbn; repeat split; intros H;
    repeat match goal with K : _ \/ _ |- _ => destruct K end; try discriminate; try contradiction; try reflexivity; try tauto; auto 8.
Qed.
