(** A triangular solver that meets its specification: lines are computed as soon as all their names
    have a value. Used in examples only. *)
From Coq Require Import String List Bool Arith Lia Permutation.
From Verif Require Import Base.Prelude Base.Dict Model.Factories Spec.Factories
  Model.ModelObject Spec.ModelObject Proofs.FactoriesProofs Proofs.FactoriesFinal.
Import ListNotations.
Open Scope string_scope.
Open Scope list_scope.

Section S.
Context {V : Type}.
Variables (op1 : string -> V -> res V) (op2 : string -> V -> V -> res V).

Definition ready (known : dict V) (e : expr V) : bool :=
  forallb (fun x => match x with SPar s => dmem known s | SVar _ _ => false end) (expr_symbols e).

(** The first line that can be computed, and the others. *)
Fixpoint pick (known : dict V) (l : dict (expr V)) : option (string * expr V * dict (expr V)) :=
  match l with
  | [] => None
  | (k, e) :: r =>
      if ready known e then Some (k, e, r)
      else match pick known r with
           | Some (k', e', r') => Some (k', e', (k, e) :: r')
           | None => None
           end
  end.

Fixpoint tri (fuel : nat) (known : dict V) (l : dict (expr V)) : res (dict V) :=
  match l with
  | [] => Ok known
  | _ :: _ =>
      match fuel with
      | O => Err ExcRuntime
      | S fuel =>
          match pick known l with
          | None => Err ExcRuntime
          | Some (k, e, r) =>
              bind (eval_formula op1 op2 known e) (fun v => tri fuel (known ++ [(k, v)]) r)
          end
      end
  end.

Fixpoint no_dup (l : list string) : bool :=
  match l with
  | [] => true
  | k :: r => negb (existsb (String.eqb k) r) && no_dup r
  end.
Definition tri_solve (l : dict (expr V)) : res (dict V) :=
  if no_dup (dkeys l) then tri (List.length l) [] l else Err ExcRuntime.

Lemma no_dup_NoDup : forall l, no_dup l = true -> NoDup l.
Proof.
  induction l as [|k r IH]; intros H; [constructor|]. simpl in H. apply andb_true_iff in H.
  destruct H as [A B]. constructor; [|auto]. intros C. apply negb_true_iff in A.
  assert (existsb (String.eqb k) r = true); [|congruence].
  apply existsb_exists. exists k. split; [exact C|apply String.eqb_refl].
Qed.

Lemma pick_spec : forall known l k e r, pick known l = Some (k, e, r) ->
  ready known e = true /\ Permutation l ((k, e) :: r).
Proof.
  intros known l. induction l as [|[k0 e0] l IH]; intros k e r H; [discriminate|]. simpl in H.
  destruct (ready known e0) eqn:E.
  - injection H as <- <- <-. split; [exact E|apply Permutation_refl].
  - destruct (pick known l) as [[[k1 e1] r1]|] eqn:P; [|discriminate]. injection H as <- <- <-.
    destruct (IH _ _ _ eq_refl) as [A B]. split; [exact A|].
    eapply perm_trans; [apply perm_skip, B|apply perm_swap].
Qed.

Lemma ready_extends : forall known sol e,
  ready known e = true -> (forall k v, dget known k = Some v -> dget sol k = Some v) ->
  eval_formula op1 op2 known e = eval_formula op1 op2 sol e.
Proof.
  intros known sol e H K. unfold eval_formula. apply eval_ext. intros x M.
  apply expr_symbols_mentions in M. unfold ready in H. rewrite forallb_forall in H. specialize (H x M).
  destruct x as [s|s t]; [|discriminate]. unfold dmem in H.
  destruct (dget known s) as [v|] eqn:E; [|discriminate]. symmetry. apply K, E.
Qed.

Lemma dget_app : forall (a b : dict V) k, dget (a ++ b) k = match dget a k with Some v => Some v | None => dget b k end.
Proof.
  induction a as [|[k0 v0] a IH]; intros b k; [reflexivity|]. simpl. destruct (String.eqb k k0); [reflexivity|apply IH].
Qed.

Lemma tri_spec : forall fuel known l sol,
  tri fuel known l = Ok sol -> NoDup (dkeys known ++ dkeys l) ->
  (forall k v, dget known k = Some v -> dget sol k = Some v) /\
  (forall k e, In (k, e) l -> exists v, dget sol k = Some v /\ eval_formula op1 op2 sol e = Ok v) /\
  (forall k, In k (dkeys sol) -> In k (dkeys known) \/ In k (dkeys l)).
Proof.
  induction fuel as [|fuel IH]; intros known l sol H ND.
  - destruct l; [|discriminate]. injection H as <-. split; [auto|split; [intros k e []|auto]].
  - destruct l as [|p l0].
    { injection H as <-. split; [auto|split; [intros k e []|auto]]. }
    remember (p :: l0) as l eqn:El.
    assert (H' : match pick known l with
                 | None => Err ExcRuntime
                 | Some (k, e, r) =>
                     bind (eval_formula op1 op2 known e) (fun v => tri fuel (known ++ [(k, v)]) r)
                 end = Ok sol) by (rewrite El in *; exact H).
    clear H. destruct (pick known l) as [[[k e] r]|] eqn:P; [|discriminate].
    destruct (pick_spec _ _ _ _ _ P) as [RD PM].
    destruct (eval_formula op1 op2 known e) as [v|] eqn:E; [|discriminate]. cbn [bind] in H'.
    assert (PK : Permutation (dkeys l) (k :: dkeys r)) by (apply (Permutation_map fst) in PM; exact PM).
    assert (ND' : NoDup (dkeys (known ++ [(k, v)]) ++ dkeys r)).
    { unfold dkeys in *. rewrite map_app, <- app_assoc. simpl.
      eapply Permutation_NoDup; [|exact ND]. apply Permutation_app_head. exact PK. }
    assert (NK : dget known k = None).
    { apply dget_None. intros C. apply (Permutation_NoDup (Permutation_app_head _ PK)) in ND.
      apply NoDup_remove_2 in ND. apply ND. apply in_or_app. left. exact C. }
    destruct (IH _ _ _ H' ND') as (A & B & C).
    assert (A' : forall k v, dget known k = Some v -> dget sol k = Some v).
    { intros k1 v1 H1. apply A. rewrite dget_app, H1. reflexivity. }
    split; [exact A'|split].
    + intros k1 e1 H1. apply (Permutation_in _ PM) in H1. destruct H1 as [H1|H1]; [|apply B, H1].
      injection H1 as <- <-. exists v. split.
      * apply A. rewrite dget_app, NK. simpl. rewrite String.eqb_refl. reflexivity.
      * rewrite <- (ready_extends known sol e RD A'). exact E.
    + intros k1 H1. destruct (C k1 H1) as [H2|H2].
      * unfold dkeys in H2. rewrite map_app in H2. apply in_app_or in H2. destruct H2 as [H2|[<-|[]]]; [left; exact H2|].
        right. apply (Permutation_in _ (Permutation_sym PK)). left. reflexivity.
      * right. apply (Permutation_in _ (Permutation_sym PK)). right. exact H2.
Qed.

Theorem tri_solve_right :
  solves_systems (fun e sol v => eval_formula op1 op2 sol e = Ok v) tri_solve.
Proof.
  intros c sol H k. unfold tri_solve in H. destruct (no_dup (dkeys c)) eqn:ND; [|discriminate].
  apply no_dup_NoDup in ND. destruct (tri_spec _ _ _ _ H ND) as (_ & B & C).
  destruct (dget c k) as [e|] eqn:E.
  - apply B, dget_In, E.
  - apply dget_None. intros D. apply dget_None in E. destruct (C k D) as [[]|D']; contradiction.
Qed.
End S.
