(** Proofs about the attributes remembered by a model. *)
From Coq Require Import String List Bool ZArith Lia.
From Verif Require Import Base.Prelude Base.Dict Model.Factories Spec.Factories Model.ModelCaches Spec.ModelCaches
  Proofs.FactoriesProofs Proofs.FactoriesFinal.
Import ListNotations.
Open Scope string_scope.
Open Scope list_scope.

Section S.
Context {V RE EQ F : Type}.
Variable parse_equations : RE -> list string -> dict (list string) -> res EQ.
Variable compile : dict (list string) -> EQ -> dict (expr V) -> res F.
Notation model := (model V RE EQ F).
Notation filedata := (filedata V RE).
Notation act := (act parse_equations compile).
Notation history := (history parse_equations compile).
Notation after := (after parse_equations compile).
Notation checked_model := (checked_model parse_equations compile).

(** The mapping loop. *)
Lemma mapping_loop_ok : forall (lines : list (string * Z * expr V)) vars, Forall (fun l => snd (fst l) = 0%Z) lines ->
  mapping_loop vars lines
  = (vars ++ map (fun l => (fst (fst l) ++ "[t]")%string) lines, Ok (map (fun l => (fst (fst l), snd l)) lines)).
Proof.
  induction lines as [|[[name date] rhs] r IH]; intros vars H; cbn [mapping_loop map]; [rewrite app_nil_r; reflexivity|].
  inversion H as [|? ? H1 H2]; subst. cbn [fst snd] in H1. rewrite H1. cbn [Z.eqb negb]. rewrite IH by exact H2.
  rewrite <- app_assoc. reflexivity.
Qed.
Lemma mapping_loop_inv : forall (lines : list (string * Z * expr V)) vars vars' d,
  mapping_loop vars lines = (vars', Ok d) -> Forall (fun l => snd (fst l) = 0%Z) lines.
Proof.
  induction lines as [|[[name date] rhs] r IH]; intros vars vars' d H; [constructor|]. cbn [mapping_loop] in H.
  destruct (Z.eqb_spec date 0) as [E|E]; cbn [negb] in H; [|discriminate H].
  destruct (mapping_loop (vars ++ [timed name]) r) as [v [d'|x]] eqn:Er; [|discriminate H].
  constructor; [exact E|]. apply (IH _ _ _ Er).
Qed.

(** A state in which the attributes were read from [d], starting from the symbols. *)
Definition good (d : filedata) (s : dict (list string)) (defs : dict (expr V)) (e : EQ) (f : option F) (o : model) : Prop :=
  m_data o = d /\ m_symbols o = Some s /\ m_definitions o = Some defs /\
  (m_variables o = Some (all_names s ++ mapping_keys d) \/ (m_variables o = None /\ mapping_keys d = [])) /\
  (m_equations o = None \/ m_equations o = Some e) /\
  m_functions o = f.

Lemma symbols_first : forall d s defs (o : model), declares d s defs ->
  m_data o = d -> m_symbols o = None -> m_definitions o = None -> m_variables o = None -> m_equations o = None ->
  exists o', read_symbols o = (o', Ok s) /\ forall e, good d s defs e (m_functions o) o'.
Proof.
  intros d s defs o D Ed Es Edf Ev Ee. unfold read_symbols. rewrite Es. cbn [with_symbols m_definitions]. rewrite Edf.
  unfold definitions_body. cbn [with_symbols m_data m_symbols m_variables]. rewrite Ed. unfold declares in D.
  destruct (fd_definitions d) as [|lines|lines] eqn:Ek.
  - destruct D as (-> & ->). eexists. split; [reflexivity|]. intros e. unfold good, mapping_keys. rewrite Ek. cbn.
    repeat split; auto.
  - destruct D as (H & -> & ->).
    assert (E : read_definitions (variables_of (fd_symbols d)) (parameters_of (fd_symbols d)) lines
              = Ok (map (fun l => fst (fst l)) lines, map (fun l => (fst (fst l), snd l)) lines)).
    { apply definitions_accepted. split; [reflexivity|]. split; [reflexivity|]. exact H. }
    rewrite E. eexists. split; [reflexivity|]. intros e. unfold good, mapping_keys. rewrite Ek. cbn. repeat split; auto.
  - destruct D as (H & -> & ->). rewrite Ev. cbn [with_symbols]. rewrite mapping_loop_ok by exact H.
    eexists. split; [reflexivity|]. intros e. unfold good, mapping_keys. rewrite Ek. cbn. repeat split; auto.
Qed.

Lemma good_symbols : forall d s defs e f (o : model), good d s defs e f o -> read_symbols o = (o, Ok s).
Proof. intros d s defs e f o (_ & H & _). unfold read_symbols. rewrite H. reflexivity. Qed.
Lemma good_defs : forall d s defs e f (o : model), good d s defs e f o -> read_defs o = (o, Ok defs).
Proof. intros d s defs e f o (_ & _ & H & _). unfold read_defs. rewrite H. reflexivity. Qed.
Lemma good_variables : forall d s defs e f (o : model), good d s defs e f o ->
  exists o', read_variables o = (o', Ok (all_names s ++ mapping_keys d)) /\ good d s defs e f o'.
Proof.
  intros d s defs e f o G. generalize G. intros (A & B & C & [D|[D M]] & E & H); unfold read_variables; rewrite D.
  - exists o. split; [reflexivity|]. exact G.
  - rewrite (good_symbols _ _ _ _ _ _ G). rewrite M, app_nil_r. exists (with_variables o (variables_of s)). split; [reflexivity|].
    unfold good. cbn. rewrite M, app_nil_r. repeat split; auto.
Qed.
Lemma good_equations : forall d s defs e f (o : model), parse_equations (fd_equations d) (names_for_equations d s defs) s = Ok e ->
  good d s defs e f o -> exists o', read_equations parse_equations o = (o', Ok e) /\ good d s defs e f o' /\ m_equations o' = Some e.
Proof.
  intros d s defs e f o P G. generalize G. intros (A & B & C & D & [E|E] & H); unfold read_equations; rewrite E.
  - destruct (good_variables _ _ _ _ _ _ G) as (o1 & R1 & G1). rewrite R1. rewrite (good_defs _ _ _ _ _ _ G1), (good_symbols _ _ _ _ _ _ G1).
    generalize G1. intros (A1 & B1 & C1 & D1 & E1 & H1). rewrite A1.
    change ((all_names s ++ mapping_keys d) ++ map (fun d0 : string * expr V => timed (fst d0)) defs) with (names_for_equations d s defs).
    rewrite P. exists (with_equations o1 e). split; [reflexivity|]. split; [|reflexivity]. unfold good. cbn. repeat split; auto.
  - exists o. split; [reflexivity|]. split; [exact G|exact E].
Qed.
Lemma good_functions : forall d s defs e f (o : model), parse_equations (fd_equations d) (names_for_equations d s defs) s = Ok e ->
  good d s defs e None o -> compile s e defs = Ok f ->
  exists o', read_functions parse_equations compile o = (o', Ok f) /\ good d s defs e (Some f) o'.
Proof.
  intros d s defs e f o P G K. generalize G. intros (A & B & C & D & E & H). unfold read_functions. rewrite H.
  destruct (good_equations _ _ _ _ _ _ P G) as (o1 & R1 & G1 & Q1). rewrite R1.
  rewrite (good_defs _ _ _ _ _ _ G1), (good_symbols _ _ _ _ _ _ G1), K. exists (with_functions o1 f). split; [reflexivity|].
  generalize G1. intros (A1 & B1 & C1 & D1 & E1 & H1). unfold good. cbn. repeat split; auto.
Qed.

Lemma good_act : forall d s defs e f (o : model) a, parse_equations (fd_equations d) (names_for_equations d s defs) s = Ok e ->
  good d s defs e (Some f) o -> is_read a -> snd (act o a) = answer d s defs e f a /\ good d s defs e (Some f) (fst (act o a)).
Proof.
  intros d s defs e f o a P G R. destruct a as [| | | | | |all|d']; cbn [ModelCaches.act answer].
  - rewrite (good_symbols _ _ _ _ _ _ G). split; [reflexivity|exact G].
  - rewrite (good_defs _ _ _ _ _ _ G). split; [reflexivity|exact G].
  - destruct (good_variables _ _ _ _ _ _ G) as (o' & R' & G'). rewrite R'. split; [reflexivity|exact G'].
  - destruct (good_equations _ _ _ _ _ _ P G) as (o' & R' & G' & _). rewrite R'. split; [reflexivity|exact G'].
  - generalize G. intros (_ & _ & _ & _ & _ & H). unfold read_functions. rewrite H. split; [reflexivity|exact G].
  - generalize G. intros (_ & _ & _ & _ & _ & H). unfold read_gufunctions. rewrite H. split; [reflexivity|exact G].
  - destruct all; [destruct R|]. split; [reflexivity|exact G].
  - destruct R.
Qed.
Lemma good_history : forall d s defs e f h (o : model), parse_equations (fd_equations d) (names_for_equations d s defs) s = Ok e ->
  good d s defs e (Some f) o -> Forall is_read h -> history o h = map (answer d s defs e f) h.
Proof.
  intros d s defs e f. induction h as [|a h IH]; intros o P G R; [reflexivity|]. inversion R as [|? ? R1 R2]; subst.
  destruct (good_act _ _ _ _ _ _ _ P G R1) as (A & B). cbn [ModelCaches.history map]. destruct (act o a) as [o' x] eqn:E. cbn [fst snd] in A, B.
  rewrite A. f_equal. apply IH; assumption.
Qed.

(** The other direction: what the constructor accepted is declared. *)
Lemma body_inv : forall (o o' : model) s defs, definitions_body o s = (o', Ok defs) -> m_symbols o = Some (fd_symbols (m_data o)) ->
  s = fd_symbols (m_data o) -> exists s', declares (m_data o) s' defs.
Proof.
  intros o o' s defs E _ ->. unfold definitions_body in E. unfold declares. destruct (fd_definitions (m_data o)) as [|lines|lines].
  - injection E as _ <-. eexists. split; reflexivity.
  - destruct (read_definitions _ _ lines) as [[auxs ds]|x] eqn:Er; [|discriminate E].
    injection E as _ <-. apply definitions_accepted in Er. destruct Er as (_ & -> & H). eexists. split; [exact H|]. split; reflexivity.
  - destruct (mapping_loop _ lines) as [v [ds|x]] eqn:Er; [|discriminate E]. injection E as _ <-.
    pose proof (mapping_loop_inv _ _ _ _ Er) as H. rewrite mapping_loop_ok in Er by exact H. injection Er as _ <-.
    eexists. split; [exact H|]. split; reflexivity.
Qed.

Lemma checked_reads : forall (d : filedata) (o : model), checked_model d = Ok o ->
  exists s defs e f, declares d s defs /\ parse_equations (fd_equations d) (names_for_equations d s defs) s = Ok e /\
    compile s e defs = Ok f /\ forall h, Forall is_read h -> history o h = map (answer d s defs e f) h.
Proof.
  intros d o H. unfold ModelCaches.checked_model in H.
  assert (Hs : exists s defs, declares d s defs).
  { unfold read_symbols in H. cbn [new_model m_symbols with_symbols m_definitions m_data] in H.
    destruct (definitions_body _ _) as [o2 [defs|x]] eqn:E in H; [|discriminate H].
    destruct (body_inv _ _ _ _ E eq_refl eq_refl) as (s' & D). exists s', defs. exact D. }
  destruct Hs as (s & defs & D).
  destruct (symbols_first d s defs (new_model d) D eq_refl eq_refl eq_refl eq_refl eq_refl) as (o1 & R1 & G1). rewrite R1 in H.
  cbn [new_model m_functions] in G1.
  destruct (parse_equations (fd_equations d) (names_for_equations d s defs) s) as [e|x] eqn:P.
  - specialize (G1 e). rewrite (good_defs _ _ _ _ _ _ G1) in H. destruct (compile s e defs) as [f|x] eqn:K.
    + destruct (good_functions _ _ _ _ _ _ P G1 K) as (o3 & R3 & G3). rewrite R3 in H. injection H as <-.
      exists s, defs, e, f. split; [exact D|]. split; [exact P|]. split; [exact K|]. intros h R. apply good_history; assumption.
    + exfalso. unfold read_functions in H. generalize G1. intros (_ & _ & _ & _ & _ & Hf). rewrite Hf in H.
      destruct (good_equations _ _ _ _ _ _ P G1) as (o2 & R2 & G2 & _). rewrite R2 in H.
      rewrite (good_defs _ _ _ _ _ _ G2), (good_symbols _ _ _ _ _ _ G2), K in H. discriminate H.
  - exfalso. destruct (m_equations o1) as [e|] eqn:Ee.
    { clear H. unfold read_symbols in R1. cbn [new_model m_symbols with_symbols m_definitions m_data] in R1. unfold definitions_body in R1.
      cbn [m_data fd_definitions with_symbols m_variables new_model] in R1.
      destruct (fd_definitions d) as [|lines|lines].
      - injection R1 as <- _. discriminate Ee.
      - destruct (read_definitions _ _ lines) as [[a b]|y]; [|discriminate R1]. injection R1 as <- _. discriminate Ee.
      - destruct (mapping_loop _ lines) as [v [b|y]]; [|discriminate R1]. injection R1 as <- _. discriminate Ee. }
    assert (Q : exists o' x', read_functions parse_equations compile o1 = (o', Err x')).
    { unfold read_functions. destruct (m_functions o1) as [f|] eqn:Hf.
      - exfalso. clear H. unfold read_symbols in R1. cbn [new_model m_symbols with_symbols m_definitions m_data] in R1. unfold definitions_body in R1.
        cbn [m_data fd_definitions with_symbols m_variables new_model] in R1.
        destruct (fd_definitions d) as [|lines|lines].
        + injection R1 as <- _. discriminate Hf.
        + destruct (read_definitions _ _ lines) as [[a b]|y]; [|discriminate R1]. injection R1 as <- _. discriminate Hf.
        + destruct (mapping_loop _ lines) as [v [b|y]]; [|discriminate R1]. injection R1 as <- _. discriminate Hf.
      - unfold read_equations. rewrite Ee.
        (* any equations value may be used to instantiate the invariant's equation slot: use the functions of the invariant that ignore it *)
        assert (GV : exists o2, read_variables o1 = (o2, Ok (all_names s ++ mapping_keys d)) /\
                  read_defs o2 = (o2, Ok defs) /\ read_symbols o2 = (o2, Ok s) /\ m_data o2 = d).
        { destruct (m_variables o1) as [v|] eqn:Ev.
          - unfold read_variables. rewrite Ev. exists o1.
            assert (X : forall e, good d s defs e None o1) by exact G1.
            (* the type of equations may be empty; recompute the state *)
            clear X. clear H. revert R1 Ev. unfold read_symbols. cbn [new_model m_symbols with_symbols m_definitions m_data]. unfold definitions_body.
            cbn [m_data fd_definitions with_symbols m_variables new_model]. unfold declares in D. unfold mapping_keys.
            destruct (fd_definitions d) as [|lines|lines] eqn:Ek.
            + intros R1 Ev. injection R1 as <- _. discriminate Ev.
            + destruct (read_definitions _ _ lines) as [[a b]|y]; [|discriminate]. intros R1 Ev. injection R1 as <- _. discriminate Ev.
            + destruct D as (H0 & -> & ->). rewrite mapping_loop_ok by exact H0. intros R1 Ev. injection R1 as <-.
              cbn in Ev. injection Ev as <-. repeat split; reflexivity.
          - unfold read_variables. rewrite Ev. revert R1 Ev. clear H. unfold read_symbols at 1. cbn [new_model m_symbols with_symbols m_definitions m_data]. unfold definitions_body.
            cbn [m_data fd_definitions with_symbols m_variables new_model]. unfold declares in D. unfold mapping_keys.
            destruct (fd_definitions d) as [|lines|lines] eqn:Ek.
            + destruct D as (-> & ->). intros R1 Ev. injection R1 as <-. eexists. rewrite app_nil_r. repeat split; reflexivity.
            + destruct D as (H0 & -> & ->).
              assert (E : read_definitions (variables_of (fd_symbols d)) (parameters_of (fd_symbols d)) lines
                        = Ok (map (fun l => fst (fst l)) lines, map (fun l => (fst (fst l), snd l)) lines)).
              { apply definitions_accepted. split; [reflexivity|]. split; [reflexivity|]. exact H0. }
              rewrite E. intros R1 Ev. injection R1 as <-. eexists. rewrite app_nil_r. repeat split; reflexivity.
            + destruct D as (H0 & -> & ->). rewrite mapping_loop_ok by exact H0. intros R1 Ev. injection R1 as <-. discriminate Ev. }
        destruct GV as (o2 & V1 & V2 & V3 & V4). rewrite V1, V2, V3, V4.
        change ((all_names s ++ mapping_keys d) ++ map (fun d0 : string * expr V => timed (fst d0)) defs) with (names_for_equations d s defs).
        rewrite P. eauto. }
    destruct Q as (o' & x' & Q).
    destruct (read_defs o1) as [o2 [dd|y]] eqn:Rd; [|discriminate H].
    assert (o2 = o1).
    { unfold read_defs in Rd. destruct (m_definitions o1) eqn:Edd; [injection Rd as <- _; reflexivity|].
      exfalso. clear H Q. unfold read_symbols in R1. cbn [new_model m_symbols with_symbols m_definitions m_data] in R1. unfold definitions_body in R1.
      cbn [m_data fd_definitions with_symbols m_variables new_model] in R1.
      destruct (fd_definitions d) as [|lines|lines].
      - injection R1 as <- _. discriminate Edd.
      - destruct (read_definitions _ _ lines) as [[a b]|z]; [|discriminate R1]. injection R1 as <- _. discriminate Edd.
      - destruct (mapping_loop _ lines) as [v [b|z]]; [|discriminate R1]. injection R1 as <- _. discriminate Edd. }
    subst o2. rewrite Q in H. discriminate H.
Qed.

Lemma checked_accepts : forall (d : filedata) s defs e f, declares d s defs ->
  parse_equations (fd_equations d) (names_for_equations d s defs) s = Ok e -> compile s e defs = Ok f ->
  exists o, checked_model d = Ok o.
Proof.
  intros d s defs e f D P K. unfold ModelCaches.checked_model.
  destruct (symbols_first d s defs (new_model d) D eq_refl eq_refl eq_refl eq_refl eq_refl) as (o1 & R1 & G1). rewrite R1.
  cbn [new_model m_functions] in G1. specialize (G1 e). rewrite (good_defs _ _ _ _ _ _ G1).
  destruct (good_functions _ _ _ _ _ _ P G1 K) as (o3 & R3 & G3). rewrite R3. eauto.
Qed.

(** Editing the file and announcing it. *)
Lemma edited_reads : forall (o : model) d s defs e f, declares d s defs ->
  parse_equations (fd_equations d) (names_for_equations d s defs) s = Ok e ->
  m_functions o = Some f -> forall h, Forall is_read h ->
  history o (AEdit d :: AChanged true :: ASymbols :: h) = SDone :: SDone :: SSymbols (Ok s) :: map (answer d s defs e f) h.
Proof.
  intros o d s defs e f D P K h R. cbn [ModelCaches.history ModelCaches.act set_changed m_data m_functions].
  destruct (symbols_first d s defs (MkModel d None None None None (m_functions o)) D eq_refl eq_refl eq_refl eq_refl eq_refl) as (o1 & R1 & G1).
  rewrite R1. f_equal. f_equal. f_equal. cbn [m_functions] in G1. rewrite K in G1. apply good_history; [exact P|apply G1|exact R].
Qed.

(** The functions never change. *)
Lemma keep_symbols : forall (o : model), m_functions (fst (read_symbols o)) = m_functions o.
Proof.
  intros o. unfold read_symbols. destruct (m_symbols o); [reflexivity|]. destruct (m_definitions _); [reflexivity|].
  unfold definitions_body. cbn [with_symbols m_data m_variables]. destruct (fd_definitions (m_data o)) as [|lines|lines]; [reflexivity| |].
  - destruct (read_definitions _ _ lines) as [[a b]|x]; reflexivity.
  - destruct (mapping_loop _ lines) as [v [b|x]]; reflexivity.
Qed.
Lemma keep_body : forall (o : model) s, m_functions (fst (definitions_body o s)) = m_functions o.
Proof.
  intros o s. unfold definitions_body. destruct (fd_definitions (m_data o)) as [|lines|lines]; [reflexivity| |].
  - destruct (read_definitions _ _ lines) as [[a b]|x]; reflexivity.
  - destruct (mapping_loop _ lines) as [v [b|x]]; reflexivity.
Qed.
Lemma keep_defs : forall (o : model), m_functions (fst (read_defs o)) = m_functions o.
Proof.
  intros o. unfold read_defs. destruct (m_definitions o); [reflexivity|]. pose proof (keep_symbols o) as H.
  destruct (read_symbols o) as [o1 [s|x]]; cbn [fst] in H |- *; [rewrite keep_body; exact H|exact H].
Qed.
Lemma keep_variables : forall (o : model), m_functions (fst (read_variables o)) = m_functions o.
Proof.
  intros o. unfold read_variables. destruct (m_variables o); [reflexivity|]. pose proof (keep_symbols o) as H.
  destruct (read_symbols o) as [o1 [s|x]]; cbn [fst] in H |- *; exact H.
Qed.
Lemma keep_equations : forall (o : model), m_functions (fst (read_equations parse_equations o)) = m_functions o.
Proof.
  intros o. unfold read_equations. destruct (m_equations o); [reflexivity|]. pose proof (keep_variables o) as H.
  destruct (read_variables o) as [o1 [vars|x]]; cbn [fst] in H |- *; [|exact H]. pose proof (keep_defs o1) as H1.
  destruct (read_defs o1) as [o2 [defs|x]]; cbn [fst] in H1 |- *; [|congruence]. pose proof (keep_symbols o2) as H2.
  destruct (read_symbols o2) as [o3 [s|x]]; cbn [fst] in H2 |- *; [|congruence].
  destruct (parse_equations _ _ _); cbn; congruence.
Qed.
Lemma keep_act : forall (o : model) a f, m_functions o = Some f -> m_functions (fst (act o a)) = Some f.
Proof.
  intros o a f H. destruct a as [| | | | | |all|d']; cbn [ModelCaches.act].
  - pose proof (keep_symbols o). destruct (read_symbols o); cbn [fst] in *; congruence.
  - pose proof (keep_defs o). destruct (read_defs o); cbn [fst] in *; congruence.
  - pose proof (keep_variables o). destruct (read_variables o); cbn [fst] in *; congruence.
  - pose proof (keep_equations o). destruct (read_equations parse_equations o); cbn [fst] in *; congruence.
  - unfold read_functions. rewrite H. exact H.
  - exact H.
  - destruct all; exact H.
  - exact H.
Qed.
Lemma keep_after : forall h (o : model) f, m_functions o = Some f -> m_functions (after o h) = Some f.
Proof. induction h as [|a h IH]; intros o f H; [exact H|]. apply IH. apply keep_act. exact H. Qed.
Lemma functions_seen : forall (o : model) f, snd (act o AFunctions) = SFunctions (Ok f) -> m_functions (fst (act o AFunctions)) = Some f.
Proof.
  intros o f. cbn [ModelCaches.act]. unfold read_functions. destruct (m_functions o) as [f0|] eqn:E.
  - cbn. intros H. injection H as ->. exact E.
  - destruct (read_equations parse_equations o) as [o1 [e|x]]; [|discriminate]. destruct (read_defs o1) as [o2 [defs|x]]; [|discriminate].
    destruct (read_symbols o2) as [o3 [s|x]]; [|discriminate]. destruct (compile s e defs) as [f1|x]; [|discriminate].
    cbn. intros H. injection H as ->. reflexivity.
Qed.
Lemma functions_kept : forall (o : model) f h, snd (act o AFunctions) = SFunctions (Ok f) ->
  snd (act (after o (AFunctions :: h)) AFunctions) = SFunctions (Ok f) /\
  snd (act (after o (AFunctions :: h)) AEgm) = SFunctions (Ok f).
Proof.
  intros o f h H. apply functions_seen in H. cbn [ModelCaches.after]. pose proof (keep_after h _ _ H) as K. revert K. generalize (after (fst (act o AFunctions)) h). intros o' K.
  cbn [ModelCaches.act]. unfold read_functions, read_gufunctions. rewrite K. split; reflexivity.
Qed.

(** Without reading the functions, the attribute used by egm does not exist. *)
Lemma egm_first : forall h (o : model), m_functions o = None -> ~ In AFunctions h ->
  snd (act (after o h) AEgm) = SFunctions (Err ExcAttribute).
Proof.
  induction h as [|a h IH]; intros o H N.
  - cbn. unfold read_gufunctions. rewrite H. reflexivity.
  - cbn [ModelCaches.after]. apply IH; [|intros Q; apply N; right; exact Q].
    destruct a as [| | | | | |all|d']; cbn [ModelCaches.act].
    + pose proof (keep_symbols o). destruct (read_symbols o); cbn [fst] in *; congruence.
    + pose proof (keep_defs o). destruct (read_defs o); cbn [fst] in *; congruence.
    + pose proof (keep_variables o). destruct (read_variables o); cbn [fst] in *; congruence.
    + pose proof (keep_equations o). destruct (read_equations parse_equations o); cbn [fst] in *; congruence.
    + exfalso. apply N. left. reflexivity.
    + exact H.
    + destruct all; exact H.
    + exact H.
Qed.
Lemma edited_after_functions : forall (o : model) f d s defs e, snd (act o AFunctions) = SFunctions (Ok f) -> declares d s defs ->
  parse_equations (fd_equations d) (names_for_equations d s defs) s = Ok e -> forall h0 h, Forall is_read h ->
  history (after o (AFunctions :: h0)) (AEdit d :: AChanged true :: ASymbols :: h)
  = SDone :: SDone :: SSymbols (Ok s) :: map (answer d s defs e f) h.
Proof.
  intros o f d s defs e H D P h0 h R. apply edited_reads; [exact D|exact P| |exact R].
  cbn [ModelCaches.after]. apply keep_after. apply functions_seen. exact H.
Qed.
End S.
