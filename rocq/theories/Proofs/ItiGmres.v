(** The Newton step of improved time iteration through gmres. *)
From Coq Require Import String Reals List Arith Lia Lra.
From Verif.Base Require Import Prelude Arrays Sums Norms Ext.
From Verif.Spec Require Import Euler Complementarity ImprovedTimeIteration ItiCall NewtonStep.
From Verif.Model Require Import Discretization Grids Processes DecisionRule Complementarity LinearSolve NumDiff TimeIteration TimeIterationCall
  ImprovedTimeIteration Bruteforce ItiCall.
From Verif.Proofs Require Import TimeIterationProofs ImprovedTimeIterationProofs BruteforceFinal ItiCallProofs.
Import ListNotations.
Open Scope R_scope.

Section Step.
  Variable g : list R -> list R -> list R -> list R -> list R.
  Variable f : list R -> list R -> list R -> list R -> list R -> list R -> nat -> R.
  Variable exo : dexo.
  Variable s : list (list R).
  Variable n_x : nat.
  Variable interpolate : tensor -> nat -> nat -> list R -> list R.
  Variable lb ub : tensor_ext.
  Variable compl : bool.
  Variable nan : R.
  Variable gmres : R -> ((nat -> R) -> nat -> R) -> (nat -> R) -> (nat -> R) * nat.
  Notation N := (length s).
  Notation n_m := (Nat.max (ex_n exo) 1).
  Notation n_im := (dp_n (ex_dp exo) 0).

  Lemma gmres_accurate : forall tol smaxit x tot J,
    meets_tolerance (n_m * N * n_x) gmres ->
    call_step g f exo s n_x interpolate lb ub compl nan gmres tol smaxit "gmres" x = Ok (tot, J) ->
    let D := iti_dres_c g f exo s n_x interpolate lb ub compl nan x in
    let Jx := iti_jres_c g f exo s n_x interpolate lb ub compl nan x in
    let r := iti_res g f exo s n_x interpolate lb ub compl nan x in
    let fut := fun i j n => nth n (next_states g exo s n_x x i j) [] in
    let ev := fun (p : tensor) i j S l => nth l (interpolate p i j S) 0 in
    let err := error_at g f exo s n_x interpolate lb ub compl nan x in
    exists b op, (forall i n k, (i < n_m)%nat -> (n < N)%nat -> (k < n_x)%nat -> present_effect n_x D b i n k = r i n k) /\
      (snd (gmres (err / 100) op (flatten N n_x b)) = 0%nat ->
       exists rest, newton_system n_m n_im N n_x ev D Jx fut r tot (present_effect n_x D rest) /\
         norm2 n_m N n_x rest <= err / 100 * norm2 n_m N n_x b).
  Proof.
    intros tol smaxit x tot J HG H. cbv zeta. unfold call_step in H.
    destruct (premultiply _ _ _ _ _ _) as [M|e] eqn:EP; [|discriminate H]. cbn [bind] in H.
    change (String.eqb "gmres" "gmres") with true in H. cbv iota in H.
    unfold gmres_step in H.
    destruct (solve_pages _ _ _ _ _) as [ddx|e] eqn:Ed; [|discriminate H]. cbn [bind] in H. injection H as <- <-.
    pose proof (solve_pages_ok _ _ _ _ _ _ Ed) as Hd.
    fold (error_at g f exo s n_x interpolate lb ub compl nan x).
    exists ddx. eexists. split; [exact Hd|]. intros H0.
    eexists. split.
    - eapply (gmres_newton_at _ _ _ _ _ _ _ (gmres (error_at g f exo s n_x interpolate lb ub compl nan x / 100))); [exact EP | exact Ed].
    - pose proof (HG _ _ _ H0) as Hb. cbv zeta in Hb. unfold norm2. eapply Rle_trans; [|exact Hb]. apply Req_le. f_equal.
      apply rsum_ext. intros q Hq. cbv beta. destruct (flat_split N n_x n_m q Hq) as (H1 & H2 & H3).
      assert (0 < N /\ 0 < n_x)%nat as (HN & Hx) by lia.
      rewrite flatten_unflatten by assumption. reflexivity.
  Qed.
End Step.

(** Without a pass there are no details. *)
Lemma no_pass_details : forall spline spline_ms nan gmres eigs md dr0 ig me pr int mu mb tol sm rad inv co rule det,
  iti_call spline spline_ms nan gmres eigs md (ItiArgs dr0 false ig me pr int mu mb tol sm 0 rad inv co) = Ok (rule, det) ->
  iti_call spline spline_ms nan gmres eigs md (ItiArgs dr0 true ig me pr int mu mb tol sm 0 rad inv co) = Err ExcName.
Proof.
  intros spline spline_ms nan gmres eigs md dr0 ig me pr int mu mb tol sm rad inv co rule det. unfold iti_call.
  cbn [ia_process ia_interp ia_dr0 ia_maxit ia_details Nat.eqb].
  destruct (tm_bounds md) as [[lb ub]|]; [|discriminate].
  destruct (iti_interp int) as [k|e]; [|discriminate]. cbn [bind].
  destruct (iti_initial _ _ _ _) as [c0|e]; [|discriminate]. cbn [bind].
  destruct (first_pass _ _ _ _); [discriminate|].
  destruct (Nat.eqb (ex_n _) 0); [discriminate|]. reflexivity.
Qed.

(** A gmres which only tries the right-hand side itself. *)
Definition lazy_gmres (d : nat) (tol : R) (A : (nat -> R) -> nat -> R) (b : nat -> R) : (nat -> R) * nat :=
  if Rle_dec (sqrt (rsum d (fun q => (b q - A b q) ^ 2))) (tol * sqrt (rsum d (fun q => b q ^ 2)))
  then (b, 0%nat) else (fun _ => 0, 1%nat).

Lemma lazy_meets : forall d, meets_tolerance d (lazy_gmres d).
Proof.
  intros d tol A b. unfold lazy_gmres. destruct (Rle_dec _ _) as [H|H]; cbn [fst snd]; [intros _; exact H | discriminate].
Qed.

Lemma lazy_solves : forall d tol b, 0 <= tol -> lazy_gmres d tol (fun y => y) b = (b, 0%nat).
Proof.
  intros d tol b Ht. unfold lazy_gmres. destruct (Rle_dec _ _) as [H|H]; [reflexivity|]. exfalso. apply H.
  rewrite rsum_0 by (intros; ring). rewrite sqrt_0. apply Rmult_le_pos; [exact Ht | apply sqrt_pos].
Qed.

