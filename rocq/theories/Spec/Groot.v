(** Vocabulary for C56. *)
From Coq Require Import String List.
From Verif.Base Require Import Prelude.
From Verif.Model Require Import Groot.
Import ListNotations.

(** [d] is [start] or a directory above it: [start] is made of some components inside [d]. *)
Definition above (d start : dir) : Prop := exists inner, start = (inner ++ d)%list.
(** A directory holds a README or README.md entry. *)
Definition has_readme (listdir : dir -> res (list string)) (d : dir) : Prop :=
  exists l, listdir d = Ok l /\ (In "README.md"%string l \/ In "README"%string l).
(** The nearest ancestor with a readme. *)
Definition project_root (listdir : dir -> res (list string)) (start d : dir) : Prop :=
  above d start /\ has_readme listdir d /\
  forall d', above d' start -> above d d' -> d' <> d -> ~ has_readme listdir d'.
Definition readable (listdir : dir -> res (list string)) (start : dir) : Prop :=
  forall d, above d start -> exists l, listdir d = Ok l.
