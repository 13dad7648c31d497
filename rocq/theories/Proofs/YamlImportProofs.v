(** Proofs for C155. *)
From Coq Require Import String List Bool Arith Lia.
From Verif Require Import Base.Prelude Base.Dict Model.CompilerMisc Model.ModelObject Model.YamlImport Spec.YamlImport.
Import ListNotations.
Open Scope string_scope.

Lemma prefix_iff : forall p s, String.prefix p s = true <-> exists b, s = p ++ b.
Proof.
  induction p as [|c p IH]; intros s; [split; [intros _; exists s; reflexivity | intros _; destruct s; reflexivity]|].
  destruct s as [|c' s]; [split; [discriminate | intros (b & H); discriminate]|]. cbn [String.prefix].
  destruct (Ascii.ascii_dec c c') as [->|Hc].
  - rewrite IH. split; intros (b & H); exists b; cbn [append] in *; congruence.
  - split; [discriminate | intros (b & H); cbn [append] in H; congruence].
Qed.

Lemma within_iff : forall p s, within p s = true <-> exists a b, s = a ++ p ++ b.
Proof.
  intros p; induction s as [|c s IH]; cbn [within]; rewrite orb_true_iff, prefix_iff.
  - split; [intros [(b & H)|H]; [exists "", b; exact H | discriminate]|].
    intros (a & b & H); left; exists b. destruct a; [exact H | discriminate].
  - rewrite IH. split.
    + intros [(b & H)|(a & b & H)]; [exists "", b; exact H | exists (String c a), b; cbn [append]; congruence].
    + intros (a & b & H). destruct a as [|c' a]; [left; exists b; exact H|].
      right; exists a, b; cbn [append] in H; congruence.
Qed.

Lemma read_source : forall open_url open_file fname,
    source open_url open_file fname (read_file_or_url open_url open_file fname).
Proof.
  intros ou of_ fname. unfold source, read_file_or_url. destruct (within "http" fname) eqn:E.
  - left; split; [apply within_iff; exact E | reflexivity].
  - right; split; [intros H; apply within_iff in H; congruence | reflexivity].
Qed.

Lemma source_unique : forall open_url open_file fname r,
    source open_url open_file fname r -> read_file_or_url open_url open_file fname = r.
Proof.
  intros ou of_ fname r H. unfold read_file_or_url. destruct (within "http" fname) eqn:E.
  - destruct H as [(_ & H)|(H & _)]; [exact H|]. exfalso; apply H; apply within_iff; exact E.
  - destruct H as [(H & _)|(_ & H)]; [apply within_iff in H; congruence | exact H].
Qed.

Section I.
Context {N M : Type}.
Variables open_url open_file : string -> res string.
Variable compose : string -> res (composed N).
Variable wraps : bool.
Variable build : dict (item N) -> bool -> res M.

Lemma import_iff : forall fname check check_only m out,
    yaml_import open_url open_file compose wraps build fname check check_only = (out, Ok m) <->
    out = [] /\ exists txt d d',
      source open_url open_file fname (Ok txt) /\ compose txt = Ok (TopMapping d) /\
      (forall k, k <> "filename" -> dget d' k = dget d k) /\
      dget d' "filename" = Some (if wraps then Scalar fname else PyString fname) /\
      d' = dset d "filename" (if wraps then Scalar fname else PyString fname) /\
      build d' check = Ok m.
Proof.
  intros fname check check_only m out. unfold yaml_import. split.
  - pose proof (read_source open_url open_file fname) as S.
    destruct (read_file_or_url open_url open_file fname) as [txt|e]; [|discriminate].
    destruct (compose txt) as [[d|]|e] eqn:C; try discriminate. intros H. injection H as <- H.
    split; [reflexivity|]. exists txt, d, (dset d "filename" (if wraps then Scalar fname else PyString fname)).
    split; [exact S|]. split; [exact C|]. split; [|split; [apply dget_dset_same | split; [reflexivity | exact H]]].
    intros k Hk. apply dget_dset_other. congruence.
  - intros (-> & txt & d & d' & S & C & _ & _ & -> & H). rewrite (source_unique _ _ _ _ S), C, H. reflexivity.
Qed.

Lemma import_prints : forall fname check check_only,
    let r := yaml_import open_url open_file compose wraps build fname check check_only in
    (fst r <> [] <-> exists txt, source open_url open_file fname (Ok txt) /\ is_err (compose txt)) /\
    (forall txt e, source open_url open_file fname (Ok txt) -> compose txt = Err e -> snd r = Err e) /\
    (forall e, source open_url open_file fname (Err e) -> r = ([], Err e)).
Proof.
  intros fname check check_only r. unfold r, yaml_import. split; [|split].
  - pose proof (read_source open_url open_file fname) as S. split.
    + destruct (read_file_or_url open_url open_file fname) as [txt|e]; [|intros H; exfalso; apply H; reflexivity].
      intros H. exists txt. split; [exact S|]. destruct (compose txt) as [[d|]|e] eqn:C.
      * exfalso; apply H; reflexivity.
      * exfalso; apply H; reflexivity.
      * exists e; exact eq_refl.
    + intros (txt & S' & e & C). rewrite (source_unique _ _ _ _ S'), C. discriminate.
  - intros txt e S C. rewrite (source_unique _ _ _ _ S), C. reflexivity.
  - intros e S. rewrite (source_unique _ _ _ _ S). reflexivity.
Qed.

Lemma http_only : forall of1 of2 fname check check_only, mentions_http fname ->
    yaml_import open_url of1 compose wraps build fname check check_only
    = yaml_import open_url of2 compose wraps build fname check check_only.
Proof.
  intros of1 of2 fname check check_only H. unfold yaml_import, read_file_or_url.
  replace (within "http" fname) with true by (symmetry; apply within_iff; exact H). reflexivity.
Qed.
End I.

Section Domain.
Context {E V Sol : Type}.
Variable eval_bound : Sol -> E -> res V.

Lemma finish_none : forall sol states (d : section E V), finish_domain eval_bound sol states d = Ok None -> d = [].
Proof.
  intros sol states [|e d]; [reflexivity|]. unfold finish_domain.
  destruct (Nat.ltb _ _); [discriminate|].
  destruct (eval_section eval_bound sol (e :: d)); discriminate.
Qed.

Lemma backward_nil : forall states grid (d : section E V), backward states grid d = [] -> d = [].
Proof. intros states grid [|e d]; [reflexivity|]. unfold backward. discriminate. Qed.

Lemma get_domain_none : forall live states grid cal (sec sec' : option (section E V)),
    get_domain eval_bound live states grid cal sec = (sec', Ok None) ->
    get_domain eval_bound live states grid cal sec' = (sec', Ok None).
Proof.
  intros live states grid cal sec sec' H. unfold get_domain in *.
  destruct cal as [sol|e]; [|discriminate]. destruct sec as [d|].
  - destruct (drop_extra live states d) as [d1 [u|e]] eqn:D; [|discriminate].
    injection H as <- F. pose proof (finish_none _ _ _ F) as B. pose proof (backward_nil _ _ _ B) as ->.
    rewrite B in *.
    assert (D0 : drop_extra live states (@nil (string * (bound E V * bound E V))) = ([], Ok tt)) by (destruct live; reflexivity).
    rewrite D0, B. reflexivity.
  - destruct (drop_extra live states []) as [d1 [u|e]] eqn:D; [|discriminate].
    injection H as <- F. rewrite D, F. reflexivity.
Qed.
End Domain.

Section O.
Context {E Sol View X Dom Sec : Type}.
Variable compute_calibration : option (dict E) -> res Sol.
Variable wrap : Sol -> res View.
Variable compute_exogenous : option (dict E) -> res X.
Variable compute_domain : option (dict E) -> Sec -> Sec * res (option Dom).
Hypothesis none_again : forall l s s', compute_domain l s = (s', Ok None) -> compute_domain l s' = (s', Ok None).

Lemma checked_iff : forall lines sec,
    (exists o, checked_object compute_calibration wrap compute_exogenous compute_domain lines sec true = Ok o) <->
    (exists c, bind (compute_calibration lines) wrap = Ok c) /\ (exists d, snd (compute_domain lines sec) = Ok d) /\
    (exists x, compute_exogenous lines = Ok x).
Proof.
  intros lines sec. unfold checked_object, read_calibration, read_domain, read_exogenous, new_object.
  cbn [o_calibration o_lines o_domain o_exogenous o_sec].
  destruct (bind (compute_calibration lines) wrap) as [c|e]; cbn [o_calibration o_lines o_domain o_exogenous o_sec].
  2: { split; [intros (o & H); discriminate | intros ((c & H) & _); discriminate]. }
  destruct (compute_domain lines sec) as [s [d|e]]; cbn [o_calibration o_lines o_domain o_exogenous o_sec snd].
  2: { split; [intros (o & H); discriminate | intros (_ & (d & H) & _); discriminate]. }
  destruct (compute_exogenous lines) as [x|e].
  2: { split; [intros (o & H); discriminate | intros (_ & _ & x & H); discriminate]. }
  split; [intros _; repeat split; eauto | intros _; eexists; reflexivity].
Qed.

Lemma checked_reads : forall lines sec o,
    checked_object compute_calibration wrap compute_exogenous compute_domain lines sec true = Ok o ->
    exists c x d, bind (compute_calibration lines) wrap = Ok c /\ compute_exogenous lines = Ok x /\
      snd (compute_domain lines sec) = Ok d /\
      forall h, Forall reading h ->
        history compute_calibration wrap compute_exogenous compute_domain o h = map (shows c x d) h.
Proof.
  intros lines sec o. unfold checked_object, read_calibration, read_domain, read_exogenous, new_object.
  cbn [o_calibration o_lines o_domain o_exogenous o_sec].
  destruct (bind (compute_calibration lines) wrap) as [c|e]; [|discriminate]. cbn [o_calibration o_lines o_domain o_exogenous o_sec].
  destruct (compute_domain lines sec) as [s [d|e]] eqn:D; [|discriminate]. cbn [o_calibration o_lines o_domain o_exogenous o_sec].
  destruct (compute_exogenous lines) as [x|e] eqn:Ex; [|discriminate]. intros H; injection H as <-.
  exists c, x, d. split; [reflexivity|]. split; [reflexivity|]. split; [reflexivity|].
  induction h as [|a h IH]; intros R; [reflexivity|]. inversion R as [|a' h' Ra Rh]; subst a' h'.
  cbn [history]. destruct a; try (exfalso; exact Ra); cbn [act].
  - unfold read_calibration; cbn [o_calibration]. cbn [map shows]. f_equal. apply IH; exact Rh.
  - unfold read_exogenous; cbn [o_exogenous]. cbn [map shows]. f_equal. apply IH; exact Rh.
  - unfold read_domain; cbn [o_domain]. destruct d as [d|].
    + cbn [map shows]. f_equal. apply IH; exact Rh.
    + cbn [o_lines o_sec o_calibration o_exogenous]. rewrite (none_again _ _ _ D).
      cbn [map shows]. f_equal. apply IH; exact Rh.
Qed.
End O.

Section F.
Context {E V B P : Type}.
Variables (zero_expr nan_expr : E) (nan : V) (literal : V -> E).
Variable solve : dict E -> res (dict V).
Variable symbols : loosy (list string).
Variable defs : dict E.
Variable eval_bound : dict V -> B -> res V.
Variable live : bool.
Variable grid : option (list V) * option (list V).
Variable eval_exogenous : option (dict V -> res (exo_section P)).

Lemma file_domain_again : forall l s s',
    file_domain zero_expr nan_expr solve symbols defs eval_bound live grid l s = (s', Ok None) ->
    file_domain zero_expr nan_expr solve symbols defs eval_bound live grid l s' = (s', Ok None).
Proof.
  intros l s s' H. unfold file_domain in *. destruct (loosy_getitem symbols "states") as [st|e].
  - exact (get_domain_none _ _ _ _ _ _ _ H).
  - destruct (file_calibration _ _ _ _ _ l); discriminate.
Qed.

Lemma file_checked_reads : forall lines sec o,
    let calibration := file_calibration zero_expr nan_expr solve symbols defs in
    let wrap := file_wrap nan literal solve symbols in
    let exogenous := file_exogenous zero_expr nan_expr solve symbols defs eval_exogenous in
    let domain := file_domain zero_expr nan_expr solve symbols defs eval_bound live grid in
    checked_object calibration wrap exogenous domain lines sec true = Ok o ->
    exists c x d, bind (calibration lines) wrap = Ok c /\ exogenous lines = Ok x /\ snd (domain lines sec) = Ok d /\
      forall h, Forall reading h -> history calibration wrap exogenous domain o h = map (shows c x d) h.
Proof.
  intros lines sec o calibration wrap exogenous domain. apply checked_reads. exact file_domain_again.
Qed.
End F.

Lemma infos_of : forall (N : Type) (d : dict (item N)) fname text,
    dget d "name" = Some (Scalar text) ->
    infos (dset d "filename" (Scalar fname))
    = [("name", VText text); ("filename", VText fname); ("type", VText "dtcc")].
Proof.
  intros N d fname text H. unfold infos, model_name, model_filename, read_entry.
  rewrite dget_dset_same, dget_dset_other by discriminate. rewrite H. reflexivity.
Qed.

Lemma infos_defaults : forall (N : Type) (d : dict (item N)) fname,
    dget d "name" = None ->
    infos (dset d "filename" (PyString fname))
    = [("name", VText "Anonymous"); ("filename", VText "<string>"); ("type", VText "dtcc")].
Proof.
  intros N d fname H. unfold infos, model_name, model_filename, read_entry.
  rewrite dget_dset_same, dget_dset_other by discriminate. rewrite H. reflexivity.
Qed.

Lemma name_nodes : forall (N : Type) (n : N) (d : dict (item N)),
    dget d "name" = Some (Collection n) -> forall s, model_name d <> VText s.
Proof. intros N n d H s. unfold model_name, read_entry. rewrite H. discriminate. Qed.
