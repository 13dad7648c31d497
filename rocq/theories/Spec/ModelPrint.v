(** What a reader of print(model) looks for. *)
From Coq Require Import String Ascii List Bool Reals.
Import ListNotations.

(** A character occurs in a text. *)
Fixpoint mentions (c : ascii) (t : string) : bool :=
  match t with EmptyString => false | String a r => Ascii.eqb c a || mentions c r end.

(** The control character terminals read as the start of a colour. *)
Definition esc : ascii := "027"%char.
Definition plain (t : string) : Prop := mentions esc t = false.

(** The equation does not hold at the calibrated values, by more than 1e-8; a nan is not known to. *)
Definition off (v : option R) : bool :=
  match v with Some r => if Rlt_dec (1 / 100000000) (Rabs r) then true else false | None => false end.

Definition count_off (rs : list (option R)) : nat := length (filter off rs).
