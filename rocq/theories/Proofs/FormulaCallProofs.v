(** Proofs about FormulaCall.v. *)
From Coq Require Import String Ascii List Bool ZArith Arith Lia DecimalString DecimalNat.
From Verif.Proofs Require Import FactoriesFinal.
From Verif.Base Require Import Prelude Dict.
From Verif.Model Require Import ModelPrint Factories FormulaCall.
From Verif.Spec Require Import Factories FormulaCall.
Import ListNotations.
Open Scope string_scope.
Open Scope list_scope.

(** ** Names *)
Lemma sapp_assoc : forall a b c : string, ((a ++ b) ++ c = a ++ (b ++ c))%string.
Proof. induction a as [|x a IH]; intros b c; [reflexivity|]. cbn. now rewrite IH. Qed.

Lemma sapp_tail : forall a b (c : ascii), (a ++ String c "")%string = (b ++ String c "")%string -> a = b.
Proof.
  induction a as [|x a IH]; intros [|y b] c H; cbn in H.
  - reflexivity.
  - injection H as -> H. destruct b; discriminate H.
  - injection H as -> H. destruct a; discriminate H.
  - injection H as -> H. f_equal. now apply (IH b c).
Qed.

Lemma ident_var : forall s t, ident (SVar s t) = ((s ++ "__" ++ date_str t) ++ "_")%string.
Proof. intros s t. cbn [ident]. rewrite !sapp_assoc. reflexivity. Qed.

Fixpoint no_bar (s : string) : bool :=
  match s with EmptyString => true | String c r => negb (Ascii.eqb c "_") && no_bar r end.

Lemma no_bar_app : forall a b, no_bar (a ++ b) = no_bar a && no_bar b.
Proof. induction a as [|c a IH]; intros b; [reflexivity|]. cbn. now rewrite IH, andb_assoc. Qed.

Lemma no_bar_uint : forall u, no_bar (NilEmpty.string_of_uint u) = true.
Proof. induction u; cbn; auto. Qed.

Lemma no_bar_nat : forall i, no_bar (nat_str i) = true.
Proof.
  intros i. unfold nat_str, NilZero.string_of_uint. destruct (Nat.to_uint i) eqn:E; try (rewrite <- E; apply no_bar_uint); try reflexivity;
  apply (no_bar_uint _).
Qed.

Lemma no_bar_date : forall t, no_bar (date_str t) = true.
Proof. intros [|p|p]; [reflexivity| |]; unfold date_str; rewrite no_bar_app, no_bar_nat; reflexivity. Qed.

Lemma to_uint_nil : forall i, Nat.to_uint i <> Decimal.Nil.
Proof.
  intros i H. pose proof (DecimalNat.Unsigned.of_to i) as K. rewrite H in K. cbn in K. subst i. discriminate H.
Qed.

Lemma nat_str_inj : forall i j, nat_str i = nat_str j -> i = j.
Proof.
  intros i j H. unfold nat_str in H.
  assert (E : Some (Nat.to_uint i) = Some (Nat.to_uint j)).
  { rewrite <- (NilZero.usu (Nat.to_uint i)), <- (NilZero.usu (Nat.to_uint j)), H; [reflexivity| |].
    - apply to_uint_nil.
    - apply to_uint_nil. }
  injection E as E. rewrite <- (DecimalNat.Unsigned.of_to i), <- (DecimalNat.Unsigned.of_to j). now rewrite E.
Qed.

Lemma date_str_inj : forall a b, date_str a = date_str b -> a = b.
Proof.
  intros [|p|p] [|q|q] H; try reflexivity; try (destruct (nat_str (Pos.to_nat q)); discriminate H);
    try (destruct (nat_str (Pos.to_nat p)); discriminate H); try discriminate H.
  - cbn in H. injection H as H. apply nat_str_inj, Pos2Nat.inj in H. now subst.
  - cbn in H. injection H as H. apply nat_str_inj, Pos2Nat.inj in H. now subst.
Qed.

Lemma split_bars : forall a b c d, no_bar c = true -> no_bar d = true -> (a ++ "__" ++ c = b ++ "__" ++ d)%string -> a = b /\ c = d.
Proof.
  assert (N : forall b d x, no_bar x = true -> x = (b ++ "__" ++ d)%string -> False).
  { intros b d x Hx ->. rewrite no_bar_app in Hx. cbn in Hx. rewrite andb_false_r in Hx. discriminate Hx. }
  induction a as [|x a IH]; intros [|y b] c d Hc Hd H; cbn in H.
  - injection H as H. now split.
  - exfalso. injection H as <- H. destruct b as [|y' b]; cbn in H.
    + injection H as H. subst c. cbn in Hc. discriminate Hc.
    + injection H as _ H. apply (N b d c Hc H).
  - exfalso. injection H as -> H. destruct a as [|x' a]; cbn in H.
    + injection H as H. subst d. cbn in Hd. discriminate Hd.
    + injection H as _ H. apply (N a c d Hd). now symmetry.
  - injection H as -> H. destruct (IH b c d Hc Hd H) as [-> ->]. now split.
Qed.

Lemma ident_var_inj : forall s t s' t', ident (SVar s t) = ident (SVar s' t') -> s = s' /\ t = t'.
Proof.
  intros s t s' t' H. rewrite !ident_var in H. apply sapp_tail in H.
  apply split_bars in H; [|apply no_bar_date|apply no_bar_date]. destruct H as [-> H]. split; [reflexivity | now apply date_str_inj].
Qed.

(** ** The dictionary *)
Section Proofs.
Context {V : Type}.
Variables (op1 : string -> V -> res V) (op2 : string -> V -> V -> res V) (nan : V).


Lemma dget_not_key : forall A (d : dict A) k, ~ In k (dkeys d) -> dget d k = None.
Proof.
  intros A d k H. induction d as [|[k' v] d IH]; [reflexivity|]. cbn [dget dkeys map fst] in *.
  destruct (String.eqb k k') eqn:E; [apply String.eqb_eq in E; subst; exfalso; apply H; now left|].
  apply IH. intros K. apply H. now right.
Qed.

Lemma dget_key : forall A (d : dict A) k, In k (dkeys d) -> exists v, dget d k = Some v.
Proof.
  intros A d k H. induction d as [|[k' v] d IH]; [destruct H|]. cbn [dget dkeys map fst] in *.
  destruct (String.eqb k k') eqn:E; [now exists v|]. destruct H as [<-|H]; [rewrite String.eqb_refl in E; discriminate E|]. now apply IH.
Qed.

Lemma spell_step : forall (dd : dict (@pv V)) keys d,
  (forall k, In k keys -> ordinary k) ->
  (forall k, ordinary k -> dget d k = dget dd k) ->
  let d' := fold_left (fun d k => match dget d k with Some v => dset d (ident (SPar k)) v | None => d end) keys d in
  (forall k, ordinary k -> dget d' k = dget dd k) /\
  forall a, (In a keys -> dget dd a <> None -> dget d' (a ++ "_")%string = dget dd a) /\
            (~ In a keys -> dget d' (a ++ "_")%string = dget d (a ++ "_")%string).
Proof.
  intros dd. induction keys as [|k keys IH]; intros d Hk Hd d'.
  - split; [exact Hd|]. intros a. split; [intros []|reflexivity].
  - subst d'. cbn [fold_left].
    assert (Ok' : ordinary k) by (apply Hk; now left).
    set (d1 := match dget d k with Some v => dset d (ident (SPar k)) v | None => d end).
    assert (Hd1 : forall k0, ordinary k0 -> dget d1 k0 = dget dd k0).
    { intros k0 H0. unfold d1. destruct (dget d k) as [v|]; [|now apply Hd]. rewrite dget_dset_other; [now apply Hd|].
      cbn [ident]. exact (proj2 (H0 k "")). }
    destruct (IH d1) as (I1 & I2); [intros k0 H0; apply Hk; now right | exact Hd1|]. split; [exact I1|].
    intros a. destruct (I2 a) as (J1 & J2).
    assert (E1 : a <> k -> dget d1 (a ++ "_")%string = dget d (a ++ "_")%string).
    { intros N. unfold d1. destruct (dget d k) as [v|]; [|reflexivity]. apply dget_dset_other. cbn [ident].
      intros K. apply N. now apply (sapp_tail a k "_"). }
    split.
    + intros Hin Hn. destruct (in_dec string_dec a keys) as [Hi|Hi]; [now apply J1|].
      destruct Hin as [<-|Hin]; [|contradiction]. rewrite (J2 Hi). unfold d1. rewrite (Hd k Ok').
      destruct (dget dd k) as [v|] eqn:E; [|contradiction]. cbn [ident]. now rewrite dget_dset_same.
    + intros Hin. rewrite J2 by (intros K; apply Hin; now right). apply E1. intros ->. apply Hin. now left.
Qed.

Lemma dkeys_context : forall known : dict V, dkeys (py_context (Some known)) = dkeys known.
Proof. intros known. unfold dkeys, py_context. rewrite map_map. reflexivity. Qed.

Lemma dget_context : forall (known : dict V) k, dget (py_context (Some known)) k = option_map Num (dget known k).
Proof.
  intros known k. unfold py_context. induction known as [|[k' v] known IH]; [reflexivity|]. cbn [map fst snd dget].
  destruct (String.eqb k k'); [reflexivity | exact IH].
Qed.

Lemma spell_get : forall (known : dict V) a, ordinary_keys known ->
  dget (spell (py_context (Some known))) (a ++ "_")%string = option_map Num (dget known a).
Proof.
  intros known a H.
  assert (H' : ordinary_keys (py_context (Some known))) by (intros k; rewrite dkeys_context; apply H).
  destruct (spell_step (py_context (Some known)) (dkeys (py_context (Some known))) (py_context (Some known)) H' (fun _ _ => eq_refl)) as (_ & I).
  unfold spell. destruct (I a) as (J1 & J2). destruct (in_dec string_dec a (dkeys known)) as [Hi|Hi].
  - rewrite J1, dget_context; [reflexivity | now rewrite dkeys_context|]. rewrite dget_context.
    destruct (dget_key _ _ _ Hi) as (v & ->). discriminate.
  - rewrite J2 by (now rewrite dkeys_context). rewrite (dget_not_key _ known a Hi). cbn [option_map]. apply dget_not_key.
    rewrite dkeys_context. intros K. now apply (proj2 (H _ K a "")).
Qed.

Lemma base_get : forall (known : dict V) a, ordinary_keys known ->
  dget (dset (dset (spell (py_context (Some known))) "log" Func) "exp" Func) (a ++ "_")%string = option_map Num (dget known a).
Proof.
  intros known a H. rewrite !dget_dset.
  assert (N : forall f, (f = "log" \/ f = "exp") -> String.eqb (a ++ "_")%string f = false).
  { intros f Hf. apply String.eqb_neq. intros K.
    assert (L : no_bar f = true) by (destruct Hf as [-> | ->]; reflexivity). rewrite <- K, no_bar_app in L. cbn in L.
    rewrite andb_false_r in L. discriminate L. }
  rewrite !N by auto. now apply spell_get.
Qed.

Lemma dated_unknown : forall (known : dict V) s t, ordinary_keys known -> dget known (s ++ "__" ++ date_str t)%string = None.
Proof.
  intros known s t H. apply dget_not_key. intros K. now apply (proj1 (H _ K s (date_str t))).
Qed.

(** ** Without a table *)
Lemma eval_py_scalar : forall (r : sym -> option V) dd (e : expr V),
  (forall x, mentions e x -> dget dd (ident x) = option_map Num (r x)) ->
  eval_py op1 op2 dd e = bind (eval op1 op2 r e) (fun v => Ok (Num v)).
Proof.
  intros r dd. induction e as [c|x|f a IH|f a IHa b IHb]; intros H; cbn [eval_py eval bind].
  - reflexivity.
  - rewrite (H x) by reflexivity. destruct (r x); reflexivity.
  - rewrite IH by (intros x Hx; apply H; exact Hx). destruct (eval op1 op2 r a) as [v|]; [|reflexivity]. cbn [bind lift1].
    destruct (op1 f v); reflexivity.
  - rewrite IHa by (intros x Hx; apply H; now left). destruct (eval op1 op2 r a) as [v|]; [|reflexivity]. cbn [bind].
    rewrite IHb by (intros x Hx; apply H; now right). destruct (eval op1 op2 r b) as [w|]; [|reflexivity]. cbn [bind lift2].
    destruct (op2 f v w); reflexivity.
Qed.

Theorem call_scalar : forall known e, ordinary_keys known ->
  eval_formula_call op1 op2 nan e None (Some known) = bind (eval op1 op2 (in_context known) e) (fun v => Ok (Num v)).
Proof.
  intros known e H. unfold eval_formula_call, names. cbv zeta. cbn [bind]. apply eval_py_scalar. intros [s|s t] _.
  - cbn [ident in_context]. now apply base_get.
  - rewrite ident_var. cbn [in_context]. rewrite base_get by exact H. now rewrite dated_unknown.
Qed.

Lemma nth_error_ext' : forall A (l m : list A), (forall i, nth_error l i = nth_error m i) -> l = m.
Proof.
  intros A. induction l as [|a l IH]; intros [|b m] H; [reflexivity|discriminate (H 0)|discriminate (H 0)|].
  f_equal; [specialize (H 0); now injection H | apply IH; intros i; exact (H (S i))].
Qed.

(** ** With a table *)
Lemma add_columns_ok : forall df l dd,
  (forall s t, In (SVar s t) l -> In s (dkeys (fr_columns df))) ->
  exists dd', add_columns nan df l dd = Ok dd' /\
    (forall s t, In (SVar s t) l -> exists col, dget (fr_columns df) s = Some col /\
       dget dd' (ident (SVar s t)) = Some (Series (map (pd_shift nan (fr_rows df) col t) (seq 0 (fr_rows df))))) /\
    (forall k, (forall s t, In (SVar s t) l -> k <> ident (SVar s t)) -> dget dd' k = dget dd k).
Proof.
  intros df. induction l as [|[p|s t] l IH]; intros dd H; cbn [add_columns].
  - exists dd. split; [reflexivity|]. split; [intros s t []|reflexivity].
  - destruct (IH dd) as (dd' & E & A & B); [intros s t Hs; apply (H s t); now right|]. exists dd'. split; [exact E|]. split.
    + intros s t [K|K]; [discriminate K | now apply A].
    + intros k Hk. apply B. intros s t Hs. apply Hk. now right.
  - destruct (dget_key _ _ _ (H s t (or_introl eq_refl))) as (col & Ec). rewrite Ec.
    match goal with |- context [add_columns nan df l ?d] => destruct (IH d) as (dd' & E & A & B) end.
    { intros s' t' Hs; apply (H s' t'); now right. }
    exists dd'. split; [exact E|]. split.
    + intros s' t' K.
      destruct (in_dec sym_dec (SVar s' t') l) as [Hi|Hi]; [now apply A|]. destruct K as [K|K]; [|contradiction].
      injection K as <- <-. exists col. split; [exact Ec|]. rewrite B.
      * now rewrite dget_dset_same.
      * intros s' t' Hs K. apply ident_var_inj in K. destruct K as [<- <-]. contradiction.
    + intros k Hk. rewrite B by (intros s' t' Hs; apply Hk; now right). apply dget_dset_other. apply Hk. now left.
Qed.

Lemma add_columns_err : forall df l dd s t, In (SVar s t) l -> ~ In s (dkeys (fr_columns df)) -> add_columns nan df l dd = Err ExcKey.
Proof.
  intros df. induction l as [|[p|s t] l IH]; intros dd s' t' H N; cbn [add_columns]; [destruct H| |].
  - destruct H as [K|K]; [discriminate K | now apply (IH dd s' t')].
  - destruct (dget (fr_columns df) s) as [col|] eqn:E; [|reflexivity]. destruct H as [K|K].
    + injection K as -> ->. exfalso. apply N. now apply dget_In_key in E.
    + now apply (IH _ s' t').
Qed.

(** What the names of a formula are. *)

Definition agree (T : nat) (row : nat -> sym -> option V) (dd : dict (@pv V)) (series : sym -> Prop) (x : sym) : Prop :=
  (~ series x /\ exists o, dget dd (ident x) = option_map Num o /\ forall i, i < T -> row i x = o) \/
  (series x /\ exists l, dget dd (ident x) = Some (Series l) /\ length l = T /\ forall i, i < T -> row i x = nth_error l i).

Definition describes (T : nat) (row : nat -> sym -> option V) (e : expr V) (p : @pv V) : Prop :=
  match p with
  | Num v => forall i, i < T -> eval op1 op2 (row i) e = Ok v
  | Series l => length l = T /\ forall i, i < T -> exists v, nth_error l i = Some v /\ eval op1 op2 (row i) e = Ok v
  | Func => False
  end.

Lemma map_res_all : forall A B (f : A -> res B) l l', map_res f l = Ok l' ->
  length l' = length l /\ forall i a, nth_error l i = Some a -> exists b, nth_error l' i = Some b /\ f a = Ok b.
Proof.
  intros A B f. induction l as [|a l IH]; intros l' H; cbn [map_res] in H.
  - injection H as <-. split; [reflexivity|]. intros [|i] a H; discriminate H.
  - destruct (f a) as [b|] eqn:Ea; [|discriminate H]. cbn [bind] in H. destruct (map_res f l) as [bs|]; [|discriminate H].
    cbn [bind] in H. injection H as <-. destruct (IH bs eq_refl) as (L & N). split; [cbn [length]; now rewrite L|].
    intros [|i] c H; cbn [nth_error] in *; [injection H as <-; now exists b | now apply N].
Qed.

Lemma map_res_some : forall A B (f : A -> res B) l, (forall i a, nth_error l i = Some a -> exists b, f a = Ok b) ->
  exists l', map_res f l = Ok l'.
Proof.
  intros A B f. induction l as [|a l IH]; intros H; cbn [map_res]; [now exists []|].
  destruct (H 0 a eq_refl) as (b & ->). cbn [bind]. destruct IH as (l' & ->); [intros i c Hc; exact (H (S i) c Hc)|].
  cbn [bind]. eexists; reflexivity.
Qed.

Lemma nth_combine : forall A B (l : list A) (m : list B) i a b, nth_error l i = Some a -> nth_error m i = Some b ->
  nth_error (combine l m) i = Some (a, b).
Proof.
  intros A B. induction l as [|x l IH]; intros [|y m] [|i] a b Ha Hb; cbn in *; try discriminate; [congruence | now apply IH].
Qed.
Lemma nth_combine_inv : forall A B (l : list A) (m : list B) i p, nth_error (combine l m) i = Some p ->
  nth_error l i = Some (fst p) /\ nth_error m i = Some (snd p).
Proof.
  intros A B. induction l as [|x l IH]; intros [|y m] [|i] p Hp; cbn in *; try discriminate; [injection Hp as <-; now split | now apply IH].
Qed.

Lemma eval_py_rows : forall T row dd series, 1 <= T -> forall e : expr V,
  (forall x, mentions e x -> agree T row dd series x) ->
  (forall p, eval_py op1 op2 dd e = Ok p -> describes T row e p /\ ((exists l, p = Series l) <-> exists x, mentions e x /\ series x)) /\
  ((forall i, i < T -> exists v, eval op1 op2 (row i) e = Ok v) -> exists p, eval_py op1 op2 dd e = Ok p).
Proof.
  intros T row dd series HT. induction e as [c|x|f a IH|f a IHa b IHb]; intros H.
  - cbn [eval_py eval]. split; [|intros _; eexists; reflexivity]. intros p E. injection E as <-. split.
    + intros i _. reflexivity.
    + split; [intros (l & K); discriminate K | intros (x & [] & _)].
  - cbn [eval_py]. destruct (H x eq_refl) as [(NS & o & Eo & R)|(Sx & l & El & L & R)].
    + rewrite Eo. destruct o as [v|]; cbn [option_map].
      * split; [|intros _; eexists; reflexivity]. intros p E. injection E as <-. split.
        -- intros i Hi. cbn [eval]. now rewrite (R i Hi).
        -- split; [intros (l & K); discriminate K|]. intros (y & K & Sy). cbn in K. subst y. contradiction.
      * split; [discriminate|]. intros K. destruct (K 0 HT) as (v & Ev). cbn [eval] in Ev. rewrite (R 0 HT) in Ev. discriminate Ev.
    + rewrite El. split; [|intros _; eexists; reflexivity]. intros p E. injection E as <-. split.
      * split; [exact L|]. intros i Hi. cbn [eval]. rewrite (R i Hi).
        destruct (nth_error l i) as [v|] eqn:En; [now exists v|]. apply nth_error_None in En. lia.
      * split; [intros _; exists x; now split | intros _; now exists l].
  - destruct (IH (fun x Hx => H x Hx)) as (I1 & I2). cbn [eval_py]. split.
    + intros p E. destruct (eval_py op1 op2 dd a) as [q|] eqn:Eq; [|discriminate E]. cbn [bind] in E.
      destruct (I1 q eq_refl) as (D & S). destruct q as [v|l|]; cbn [lift1] in E.
      * destruct (op1 f v) as [w|] eqn:Ew; [|discriminate E]. cbn [bind] in E. injection E as <-. split.
        -- intros i Hi. cbn [eval]. rewrite (D i Hi). exact Ew.
        -- split; [intros (l & K); discriminate K|]. intros K. apply S in K. destruct K as (l & K). discriminate K.
      * destruct (map_res (op1 f) l) as [l'|] eqn:El; [|discriminate E]. cbn [bind] in E. injection E as <-.
        destruct (map_res_all _ _ _ _ _ El) as (L & N). destruct D as (D1 & D2). split.
        -- split; [lia|]. intros i Hi. destruct (D2 i Hi) as (v & V1 & V2). destruct (N i v V1) as (w & W1 & W2).
           exists w. split; [exact W1|]. cbn [eval]. rewrite V2. exact W2.
        -- split; [intros _; apply S; now exists l | intros _; now exists l'].
      * destruct D.
    + intros K. destruct I2 as (q & Eq).
      { intros i Hi. destruct (K i Hi) as (v & Ev). cbn [eval] in Ev. destruct (eval op1 op2 (row i) a) as [u|]; [now exists u | discriminate Ev]. }
      rewrite Eq. cbn [bind]. destruct (I1 q Eq) as (D & _). destruct q as [v|l|]; cbn [lift1].
      * destruct (K 0 HT) as (w & Ew). cbn [eval] in Ew. rewrite (D 0 HT) in Ew. cbn [bind] in Ew. rewrite Ew. eexists; reflexivity.
      * destruct D as (D1 & D2). destruct (map_res_some _ _ (op1 f) l) as (l' & ->); [|eexists; reflexivity].
        intros i u Hu. assert (Hi : i < T) by (rewrite <- D1; apply nth_error_Some; congruence).
        destruct (D2 i Hi) as (v & V1 & V2). assert (u = v) by congruence. subst u.
        destruct (K i Hi) as (w & Ew). cbn [eval] in Ew. rewrite V2 in Ew. now exists w.
      * destruct D.
  - destruct (IHa (fun x Hx => H x (or_introl Hx))) as (I1 & I2). destruct (IHb (fun x Hx => H x (or_intror Hx))) as (J1 & J2).
    cbn [eval_py]. split.
    + intros p E. destruct (eval_py op1 op2 dd a) as [q|] eqn:Eq; [|discriminate E]. cbn [bind] in E.
      destruct (eval_py op1 op2 dd b) as [r|] eqn:Er; [|discriminate E]. cbn [bind] in E.
      destruct (I1 q eq_refl) as (D & S). destruct (J1 r eq_refl) as (D' & S').
      assert (Both : (exists x, mentions (EApp2 f a b) x /\ series x) <->
                     (exists x, mentions a x /\ series x) \/ (exists x, mentions b x /\ series x)).
      { split.
        - intros (x & [Hx|Hx] & Sx); [left | right]; now exists x.
        - intros [(x & Hx & Sx)|(x & Hx & Sx)]; exists x; split; try exact Sx; [now left | now right]. }
      destruct q as [v|l|]; destruct r as [w|m|]; cbn [lift2] in E; try (destruct D; fail); try (destruct D'; fail).
      * destruct (op2 f v w) as [u|] eqn:Eu; [|discriminate E]. cbn [bind] in E. injection E as <-. split.
        -- intros i Hi. cbn [eval]. rewrite (D i Hi). cbn [bind]. rewrite (D' i Hi). exact Eu.
        -- rewrite Both, <- S, <- S'. split; [intros (l & K); discriminate K|]. intros [(l & K)|(l & K)]; discriminate K.
      * destruct (map_res _ m) as [m'|] eqn:Em; [|discriminate E]. cbn [bind] in E. injection E as <-.
        destruct (map_res_all _ _ _ _ _ Em) as (L & N). destruct D' as (D1 & D2). split.
        -- split; [lia|]. intros i Hi. destruct (D2 i Hi) as (y & Y1 & Y2). destruct (N i y Y1) as (z & Z1 & Z2).
           exists z. split; [exact Z1|]. cbn [eval]. rewrite (D i Hi). cbn [bind]. rewrite Y2. exact Z2.
        -- rewrite Both, <- S, <- S'. split; [intros _; right; now exists m | intros _; now exists m'].
      * destruct (map_res _ l) as [m'|] eqn:Em; [|discriminate E]. cbn [bind] in E. injection E as <-.
        destruct (map_res_all _ _ _ _ _ Em) as (L & N). destruct D as (D1 & D2). split.
        -- split; [lia|]. intros i Hi. destruct (D2 i Hi) as (y & Y1 & Y2). destruct (N i y Y1) as (z & Z1 & Z2).
           exists z. split; [exact Z1|]. cbn [eval]. rewrite Y2. cbn [bind]. rewrite (D' i Hi). exact Z2.
        -- rewrite Both, <- S, <- S'. split; [intros _; left; now exists l | intros _; now exists m'].
      * destruct (map_res _ (combine l m)) as [m'|] eqn:Em; [|discriminate E]. cbn [bind] in E. injection E as <-.
        destruct (map_res_all _ _ _ _ _ Em) as (L & N). destruct D as (D1 & D2). destruct D' as (D1' & D2'). split.
        -- split; [rewrite L, combine_length; lia|]. intros i Hi. destruct (D2 i Hi) as (y & Y1 & Y2).
           destruct (D2' i Hi) as (z & Z1 & Z2). destruct (N i (y, z) (nth_combine _ _ _ _ _ _ _ Y1 Z1)) as (u & U1 & U2).
           exists u. split; [exact U1|]. cbn [eval]. rewrite Y2. cbn [bind]. rewrite Z2. exact U2.
        -- rewrite Both, <- S, <- S'. split; [intros _; left; now exists l | intros _; now exists m'].
    + intros K. destruct I2 as (q & Eq).
      { intros i Hi. destruct (K i Hi) as (v & Ev). cbn [eval] in Ev. destruct (eval op1 op2 (row i) a) as [u|]; [now exists u | discriminate Ev]. }
      destruct J2 as (r & Er).
      { intros i Hi. destruct (K i Hi) as (v & Ev). cbn [eval] in Ev. destruct (eval op1 op2 (row i) a) as [u|]; [|discriminate Ev].
        cbn [bind] in Ev. destruct (eval op1 op2 (row i) b) as [u'|]; [now exists u' | discriminate Ev]. }
      rewrite Eq. cbn [bind]. rewrite Er. cbn [bind]. destruct (I1 q Eq) as (D & _). destruct (J1 r Er) as (D' & _).
      destruct q as [v|l|]; destruct r as [w|m|]; cbn [lift2]; try (destruct D; fail); try (destruct D'; fail).
      * destruct (K 0 HT) as (u & Eu). cbn [eval] in Eu. rewrite (D 0 HT) in Eu. cbn [bind] in Eu. rewrite (D' 0 HT) in Eu. cbn [bind] in Eu.
        rewrite Eu. eexists; reflexivity.
      * destruct D' as (D1 & D2). match goal with |- context [map_res ?g m] => destruct (map_res_some _ _ g m) as (l' & ->) end; [|eexists; reflexivity].
        intros i y Hy. assert (Hi : i < T) by (rewrite <- D1; apply nth_error_Some; congruence).
        destruct (D2 i Hi) as (y' & Y1 & Y2). assert (y = y') by congruence. subst y'.
        destruct (K i Hi) as (u & Eu). cbn [eval] in Eu. rewrite (D i Hi) in Eu. cbn [bind] in Eu. rewrite Y2 in Eu. now exists u.
      * destruct D as (D1 & D2). match goal with |- context [map_res ?g l] => destruct (map_res_some _ _ g l) as (l' & ->) end; [|eexists; reflexivity].
        intros i y Hy. assert (Hi : i < T) by (rewrite <- D1; apply nth_error_Some; congruence).
        destruct (D2 i Hi) as (y' & Y1 & Y2). assert (y = y') by congruence. subst y'.
        destruct (K i Hi) as (u & Eu). cbn [eval] in Eu. rewrite Y2 in Eu. cbn [bind] in Eu. rewrite (D' i Hi) in Eu. now exists u.
      * destruct D as (D1 & D2). destruct D' as (D1' & D2').
        match goal with |- context [map_res ?g (combine l m)] => destruct (map_res_some _ _ g (combine l m)) as (l' & ->) end; [|eexists; reflexivity].
        intros i [y z] Hy. apply nth_combine_inv in Hy. cbn [fst snd] in *. destruct Hy as (Y1 & Z1).
        assert (Hi : i < T) by (rewrite <- D1; apply nth_error_Some; congruence).
        destruct (D2 i Hi) as (y' & Y1' & Y2). assert (y = y') by congruence. subst y'.
        destruct (D2' i Hi) as (z' & Z1' & Z2). assert (z = z') by congruence. subst z'.
        destruct (K i Hi) as (u & Eu). cbn [eval] in Eu. rewrite Y2 in Eu. cbn [bind] in Eu. rewrite Z2 in Eu. now exists u.
Qed.

Lemma not_t : forall a, a <> "t" -> ((a ++ "_")%string <> "t_").
Proof. intros a H K. apply H. exact (sapp_tail a "t" "_" K). Qed.
Lemma dated_not_t : forall s t, (s ++ "__" ++ date_str t)%string <> "t".
Proof.
  intros s t K. assert (E : no_bar (s ++ "__" ++ date_str t) = true) by (rewrite K; reflexivity).
  rewrite no_bar_app in E. cbn in E. rewrite andb_false_r in E. discriminate E.
Qed.

Definition reads (x : sym) : Prop := match x with SPar s => s = "t" | SVar _ _ => True end.

Lemma names_table : forall (df : frame) known (e : expr V), ordinary_keys known ->
  (forall s, mentions e (SPar s) -> ordinary s) ->
  (forall s t, mentions e (SVar s t) -> In s (dkeys (fr_columns df))) ->
  exists dd, names nan e (Some df) (Some known) = Ok dd /\
    forall x, mentions e x ->
      agree (fr_rows df) (formula_env nan (fr_rows df) (fr_columns df) known (fr_index df)) dd reads x.
Proof.
  intros df known e Hk He Hc. unfold names. cbv zeta.
  set (base := dset (dset (spell (py_context (Some known))) "log" Func) "exp" Func).
  destruct (add_columns_ok df (expr_symbols e) base) as (dd & E & A & B).
  { intros s t Hs. apply (Hc s t). now apply expr_symbols_mentions. }
  rewrite E. cbn [bind]. eexists. split; [reflexivity|]. intros [s|s t] Hx.
  - destruct (string_dec s "t") as [->|N].
    + right. split; [reflexivity|]. eexists. split; [cbn [ident]; apply (dget_dset_same dd "t_")|].
      split; [now rewrite map_length, seq_length|]. intros i Hi. cbn [formula_env]. rewrite String.eqb_refl.
      rewrite nth_error_map, nth_error_nth' with (d := 0) by (now rewrite seq_length). now rewrite seq_nth.
    + left. split; [exact N|]. exists (dget known s). split.
      * cbn [ident]. rewrite dget_dset_other by (now apply not_t). rewrite B; [now apply base_get|].
        intros s' t' _ K. rewrite ident_var in K. apply sapp_tail in K. now apply (proj1 (He s Hx s' (date_str t'))).
      * intros i _. cbn [formula_env]. now rewrite (proj2 (String.eqb_neq _ _) N).
  - right. split; [exact I|]. destruct (A s t) as (col & C1 & C2); [now apply expr_symbols_mentions|]. eexists. split.
    + rewrite dget_dset_other; [exact C2|]. rewrite ident_var. apply not_t, dated_not_t.
    + split; [now rewrite map_length, seq_length|]. intros i Hi. cbn [formula_env]. rewrite C1.
      rewrite nth_error_map, nth_error_nth' with (d := 0) by (now rewrite seq_length). now rewrite seq_nth.
Qed.

Lemma reads_some : forall e : expr V, (exists x, mentions e x /\ reads x) <-> reads_table e.
Proof.
  intros e. unfold reads_table. split.
  - intros ([s|s t] & Hx & R); [cbn in R; subst s; now left | right; now exists s, t].
  - intros [H|(s & t & H)]; [exists (SPar "t"); split; [exact H | reflexivity] | exists (SVar s t); split; [exact H | exact I]].
Qed.

(** A formula that reads the table is the series of its rows. *)
Theorem call_table : forall (df : frame) known (e : expr V), 1 <= fr_rows df -> ordinary_keys known ->
  (forall s, mentions e (SPar s) -> ordinary s) -> reads_table e -> forall rows,
  eval_formula_call op1 op2 nan e (Some df) (Some known) = Ok (Series rows) <->
  eval_formula_table op1 op2 nan (fr_rows df) (fr_columns df) known (fr_index df) e = Ok rows.
Proof.
  intros df known e HT Hk He R rows. rewrite (formula_rows op1 op2). unfold eval_formula_call. split.
  - intros H. destruct (names nan e (Some df) (Some known)) as [dd|] eqn:En; [|discriminate H]. cbn [bind] in H.
    assert (Hc : forall s t, mentions e (SVar s t) -> In s (dkeys (fr_columns df))).
    { intros s t Hs. destruct (in_dec string_dec s (dkeys (fr_columns df))) as [|N]; [assumption|]. exfalso.
      unfold names in En. cbv zeta in En. rewrite (add_columns_err df _ _ s t) in En; [discriminate En | now apply expr_symbols_mentions | exact N]. }
    destruct (names_table df known e Hk He Hc) as (dd' & En' & A). rewrite En in En'. injection En' as <-.
    destruct (proj1 (eval_py_rows _ _ dd _ HT e A) _ H) as ((D1 & D2) & _). split; [exact Hc|]. split; [exact D1|]. exact D2.
  - intros (Hc & L & D). destruct (names_table df known e Hk He Hc) as (dd & En & A). rewrite En. cbn [bind].
    destruct (eval_py_rows _ _ dd _ HT e A) as (F & G). destruct G as (p & Ep).
    { intros i Hi. destruct (D i Hi) as (v & _ & Ev). now exists v. }
    rewrite Ep. destruct (F p Ep) as (D' & S). rewrite reads_some in S. destruct (proj2 S R) as (l & ->).
    destruct D' as (D1 & D2). do 2 f_equal. apply nth_error_ext'. intros i.
    destruct (Nat.lt_ge_cases i (fr_rows df)) as [Hi|Hi].
    + destruct (D i Hi) as (v & V1 & V2). destruct (D2 i Hi) as (w & W1 & W2). congruence.
    + rewrite !(proj2 (nth_error_None _ _)); [reflexivity|lia|lia].
Qed.

(** One that does not is a number, whatever the table. *)
Theorem call_no_table : forall (df : frame) known (e : expr V), 1 <= fr_rows df -> ordinary_keys known ->
  (forall s, mentions e (SPar s) -> ordinary s) -> ~ reads_table e ->
  eval_formula_call op1 op2 nan e (Some df) (Some known) = bind (eval op1 op2 (in_context known) e) (fun v => Ok (Num v)).
Proof.
  intros df known e HT Hk He R.
  assert (Hc : forall s t, mentions e (SVar s t) -> In s (dkeys (fr_columns df))).
  { intros s t Hs. exfalso. apply R. right. now exists s, t. }
  destruct (names_table df known e Hk He Hc) as (dd & En & A). unfold eval_formula_call. rewrite En. cbn [bind].
  apply eval_py_scalar. intros x Hx. destruct (A x Hx) as [(NS & o & E & F)|(Sx & _)].
  - rewrite E. rewrite <- (F 0 HT). f_equal. destruct x as [s|s t]; [|exfalso; apply NS; exact I]. cbn [formula_env in_context].
    cbn [reads] in NS. now rewrite (proj2 (String.eqb_neq _ _) NS).
  - exfalso. apply R, reads_some. now exists x.
Qed.

(** A column that is missing. *)
Theorem call_missing : forall (df : frame) context (e : expr V) s t, mentions e (SVar s t) -> ~ In s (dkeys (fr_columns df)) ->
  eval_formula_call op1 op2 nan e (Some df) context = Err ExcKey.
Proof.
  intros df context e s t H N. unfold eval_formula_call, names. cbv zeta.
  rewrite (add_columns_err df _ _ s t); [reflexivity | now apply expr_symbols_mentions | exact N].
Qed.

(** The name t on a table. *)
Theorem call_t : forall (df : frame) context,
  eval_formula_call op1 op2 nan (ESym (SPar "t")) (Some df) context = Ok (Series (map (fr_index df) (seq 0 (fr_rows df)))).
Proof.
  intros df context. unfold eval_formula_call, names. cbv zeta. cbn [expr_symbols add_columns bind eval_py ident].
  rewrite (dget_dset_same _ "t_"). reflexivity.
Qed.

Lemma ordinary_single : forall c, c <> "_"%char -> ordinary (String c "").
Proof.
  intros c H a b. split; intros K.
  - destruct a as [|x a]; cbn in K; [injection K as K _; contradiction|]. injection K as _ K. destruct a; discriminate K.
  - destruct a as [|x a]; cbn in K; [injection K as K; contradiction|]. injection K as _ K. destruct a; discriminate K.
Qed.
End Proofs.
