(** An ordering of definitions that meets its specification: see [right_order]. Used in examples only. *)
From Coq Require Import String List Bool Arith Lia Permutation.
From Verif Require Import Base.Prelude Base.Dict Model.Factories Spec.Factories
  Proofs.FactoriesProofs Proofs.FactoriesFinal.
Import ListNotations.

Section S.
Context {V : Type}.

Definition free_of (names : list sym) (e : expr V) : bool :=
  forallb (fun y => negb (if in_dec sym_dec y (expr_symbols e) then true else false)) names.

Lemma free_of_spec : forall names e, free_of names e = true <-> forall y, In y names -> ~ mentions e y.
Proof.
  intros names e. unfold free_of. rewrite forallb_forall. split.
  - intros H y Hy M. apply expr_symbols_mentions in M. specialize (H y Hy).
    destruct (in_dec sym_dec y (expr_symbols e)); [discriminate|contradiction].
  - intros H y Hy. destruct (in_dec sym_dec y (expr_symbols e)) as [I|I]; [|reflexivity].
    exfalso. apply (H y Hy). apply expr_symbols_mentions. exact I.
Qed.

Fixpoint choose (names : list sym) (l : list (sym * expr V)) : option (sym * expr V * list (sym * expr V)) :=
  match l with
  | [] => None
  | (x, e) :: r =>
      if free_of names e then Some (x, e, r)
      else match choose names r with
           | Some (x', e', r') => Some (x', e', (x, e) :: r')
           | None => None
           end
  end.

Fixpoint order (fuel : nat) (l : list (sym * expr V)) : res (list (sym * expr V)) :=
  match l, fuel with
  | [], _ => Ok []
  | _, O => Err ExcValue
  | _, S fuel =>
      match choose (map fst l) l with
      | None => Err ExcValue
      | Some (x, e, r) => bind (order fuel r) (fun l' => Ok ((x, e) :: l'))
      end
  end.
Definition tri_order (l : list (sym * expr V)) := order (List.length l) l.

Lemma choose_spec : forall names l x e r, choose names l = Some (x, e, r) ->
  free_of names e = true /\ Permutation l ((x, e) :: r).
Proof.
  intros names l. induction l as [|[x0 e0] l IH]; intros x e r H; [discriminate|]. simpl in H.
  destruct (free_of names e0) eqn:E.
  - injection H as <- <- <-. split; [exact E|apply Permutation_refl].
  - destruct (choose names l) as [[[x1 e1] r1]|] eqn:P; [|discriminate]. injection H as <- <- <-.
    destruct (IH _ _ _ eq_refl) as [A B]. split; [exact A|].
    eapply perm_trans; [apply perm_skip, B|apply perm_swap].
Qed.

Lemma choose_finds : forall names l x e, In (x, e) l -> free_of names e = true ->
  exists p, choose names l = Some p.
Proof.
  intros names l x e. induction l as [|[x0 e0] l IH]; intros H F; [contradiction|]. simpl.
  destruct (free_of names e0) eqn:E; [eauto|]. destruct H as [H|H].
  - injection H as -> ->. congruence.
  - destruct (IH H F) as [[[x1 e1] r1] ->]. eauto.
Qed.

Lemma order_sorts : forall fuel l l', order fuel l = Ok l' -> Permutation l l' /\ triangular l'.
Proof.
  induction fuel as [|fuel IH]; intros l l' H.
  - destruct l; [|discriminate]. injection H as <-. split; [constructor|exact I].
  - destruct l as [|p l0]; [injection H as <-; split; [constructor|exact I]|].
    cbn [order] in H. destruct (choose (map fst (p :: l0)) (p :: l0)) as [[[x e] r]|] eqn:P; [|discriminate].
    destruct (choose_spec _ _ _ _ _ P) as [F PM].
    destruct (order fuel r) as [r'|] eqn:O; [|discriminate]. injection H as <-.
    destruct (IH _ _ O) as [A B]. split.
    + eapply perm_trans; [exact PM|apply perm_skip, A].
    + split; [|exact B]. intros y Hy. apply (proj1 (free_of_spec _ _) F).
      apply (Permutation_in _ (Permutation_sym (Permutation_map fst PM))). simpl in *.
      destruct Hy as [Hy|Hy]; [left; exact Hy|right].
      apply (Permutation_in _ (Permutation_sym (Permutation_map fst A))). exact Hy.
Qed.

Lemma triangular_remove : forall (a b : list (sym * expr V)) p, triangular (a ++ p :: b) -> triangular (a ++ b).
Proof.
  induction a as [|[x e] a IH]; intros b p H.
  - destruct p. exact (proj2 H).
  - simpl in *. destruct H as [A B]. split; [|apply (IH b p), B].
    intros y Hy. apply A. destruct Hy as [Hy|Hy]; [left; exact Hy|right].
    rewrite map_app in *. apply in_app_or in Hy. apply in_or_app. simpl. tauto.
Qed.

Lemma order_total : forall fuel l l', List.length l <= fuel -> Permutation l l' -> triangular l' ->
  exists l'', order fuel l = Ok l''.
Proof.
  induction fuel as [|fuel IH]; intros l l' L PM T.
  - destruct l; [simpl; eauto|simpl in L; lia].
  - destruct l as [|p l0]; [simpl; eauto|].
    destruct l' as [|[x1 e1] l1]; [apply Permutation_length in PM; discriminate|].
    assert (F1 : free_of (map fst (p :: l0)) e1 = true).
    { apply free_of_spec. intros y Hy. apply (proj1 T).
      apply (Permutation_in _ (Permutation_map fst PM)) in Hy. exact Hy. }
    destruct (choose_finds (map fst (p :: l0)) (p :: l0) x1 e1) as [[[x e] r] P].
    { apply (Permutation_in _ (Permutation_sym PM)). left. reflexivity. }
    { exact F1. }
    cbn [order]. rewrite P. destruct (choose_spec _ _ _ _ _ P) as [_ PM'].
    assert (I : In (x, e) ((x1, e1) :: l1)).
    { apply (Permutation_in _ PM). apply (Permutation_in _ (Permutation_sym PM')). left. reflexivity. }
    destruct (in_split _ _ I) as (a & b & E). rewrite E in PM, T.
    assert (PR : Permutation r (a ++ b)).
    { apply (Permutation_cons_inv (a := (x, e))).
      eapply perm_trans; [apply Permutation_sym, PM'|].
      eapply perm_trans; [exact PM|]. apply Permutation_sym, Permutation_middle. }
    destruct (IH r (a ++ b)) as [l'' ->].
    + apply Permutation_length in PM'. simpl in *. lia.
    + exact PR.
    + apply (triangular_remove a b (x, e)), T.
    + simpl. eauto.
Qed.

Theorem tri_order_right : sorts tri_order /\
  forall l l', Permutation l l' -> triangular l' -> exists l'', tri_order l = Ok l''.
Proof.
  split; [intros l l' H; exact (order_sorts _ _ _ H)|].
  intros l l' P T. exact (order_total _ _ _ (le_n _) P T).
Qed.
End S.
