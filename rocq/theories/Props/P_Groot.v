(** Properties of groot (dolo/misc/groot.py): C56. *)
From Coq Require Import String List Arith Lia.
From Verif.Base Require Import Prelude.
From Verif.Model Require Import Groot.
From Verif.Spec Require Import Groot.
From Verif.Proofs Require Import GrootProofs.
Import ListNotations.
Open Scope list_scope.

(** C56. For all trees and all depths: if the directories from the start up to the nearest one with a readme can be
    listed, the process ends in that directory (or in the sub-directory asked for). *)
Theorem C56_found : forall listdir enter path start r d,
    project_root listdir start r -> enter r path = Ok d ->
    (forall a, above a start -> above r a -> exists l, listdir a = Ok l) ->
    groot listdir enter path start = (Ok tt, d).
Proof. exact groot_found. Qed.
Print Assumptions C56_found.

(** If there is none, the initial directory is restored and an exception is raised. *)
Theorem C56_not_found : forall listdir enter path start,
    readable listdir start -> (forall a, above a start -> ~ has_readme listdir a) ->
    groot listdir enter path start = (Err (ExcGeneric "Root directory not found."), start).
Proof. exact groot_not_found. Qed.
Print Assumptions C56_not_found.

(** In all cases: success only in the project root (resp. the directory asked for inside of it); an exception
    means that no directory has a readme, that a directory on the way cannot be listed, or that the directory asked
    for cannot be entered; in the last two cases the process is left in the directory where this happened. *)
Theorem C56_cases : forall listdir enter path start,
    match groot listdir enter path start with
    | (Ok _, d) => exists r, project_root listdir start r /\ enter r path = Ok d
    | (Err e, d) =>
        (e = ExcGeneric "Root directory not found." /\ d = start /\ forall a, above a start -> ~ has_readme listdir a) \/
        (listdir d = Err e /\ above d start /\ forall a, above a start -> above d a -> a <> d -> ~ has_readme listdir a) \/
        (project_root listdir start d /\ enter d path = Err e)
    end.
Proof. exact groot_cases. Qed.
Print Assumptions C56_cases.

(** Examples: /home/x/proj/sub with a readme in proj; and no readme at all. *)
Definition tree (d : dir) : res (list string) := match d with ["proj"; "x"; "home"]%string => Ok ["README.md"; "sub"]%string | _ => Ok [] end.
Example C56_found_nontrivial :
    project_root tree ["sub"; "proj"; "x"; "home"]%string ["proj"; "x"; "home"]%string /\
    groot tree (fun d p => Ok d) "" ["sub"; "proj"; "x"; "home"]%string = (Ok tt, ["proj"; "x"; "home"]%string).
Proof.
  split; [|reflexivity]. split; [exists ["sub"%string]; reflexivity|]. split.
  - eexists. split; [reflexivity|]. left. left. reflexivity.
  - intros d' (i & E) (j & ->) N (l & El & H). destruct j as [|y j]; [contradiction|].
    destruct i as [|z i].
    + cbn in E. injection E as <- E. destruct j; [|apply (f_equal (@length string)) in E; rewrite app_length in E; cbn in E; lia].
      cbn in El. injection El as <-. destruct H as [[]|[]].
    + apply (f_equal (@length string)) in E. cbn in E. rewrite !app_length in E. cbn in E. rewrite app_length in E. cbn in E. lia.
Qed.
Example C56_not_found_nontrivial : readable (fun _ => Ok []) ["a"; "b"]%string /\ (forall a, above a ["a"; "b"]%string -> ~ has_readme (fun _ => Ok []) a).
Proof.
  split; [intros d _; eexists; reflexivity|]. intros a _ (l & E & H). injection E as <-. destruct H as [[]|[]].
Qed.

(** When the sub-directory does not exist the process is not restored to its initial directory. *)
Theorem C56_bad_path_refuted : exists listdir enter path start e d, readable listdir start /\ d <> start /\
    groot listdir enter path start = (Err e, d).
Proof.
  exists tree, (fun d p => Err ExcValue), "nowhere"%string, ["sub"; "proj"; "x"; "home"]%string, ExcValue, ["proj"; "x"; "home"]%string.
  split; [|split; [discriminate|reflexivity]]. intros d _. unfold tree.
  repeat match goal with |- context [match ?x with _ => _ end] => destruct x; try (eexists; reflexivity) end.
Qed.
Print Assumptions C56_bad_path_refuted.
