(** Model of /repo/dolo/misc/groot.py. *)
From Coq Require Import String List Arith Bool.
From Verif.Base Require Import Prelude.
Import ListNotations.
Open Scope string_scope.

(** An absolute directory: its components, the innermost first; [[]] is the root, which is its own parent.
    Symbolic links are resolved (os.getcwd returns real paths). *)
Definition dir : Type := list string.
Definition parent (d : dir) : dir := tl d.
Fixpoint dir_eqb (a b : dir) : bool :=
  match a, b with
  | [], [] => true
  | x :: a', y :: b' => String.eqb x y && dir_eqb a' b'
  | _, _ => false
  end.

Section Groot.
  (** os.listdir on a directory, which may be refused. *)
  Variable listdir : dir -> res (list string).
  (** os.chdir(os.path.join(d, path)): the directory reached, or an exception. *)
  Variable enter : dir -> string -> res dir.

  (** 5-9 *)
  Definition check_filelist (l : list string) : bool := existsb (String.eqb "README.md") l || existsb (String.eqb "README") l.

  (** Variables of the loop 20-30; [here] is the working directory of the process. *)
  Record groot_state : Type := GState { here : dir; cwd : dir; cwd0 : dir; found : bool; sysroot : bool }.

  (** 21-30: one pass.  An exception leaves the process where it is. *)
  Definition groot_pass (path : string) (s : groot_state) : res groot_state * dir :=
    match listdir (here s) with
    | Err e => (Err e, here s)
    | Ok l =>
        if check_filelist l then
          match enter (cwd0 s) path with
          | Err e => (Err e, here s)
          | Ok d => (Ok (GState d (cwd s) (cwd0 s) true (sysroot s)), d)
          end
        else
          let c := parent (cwd s) in
          if dir_eqb c (cwd0 s) then (Ok (GState c c (cwd0 s) false true), c)
          else (Ok (GState c c c false (sysroot s)), c)
    end.

  (** 20: the loop, with a bound on the number of passes; running out of it is not a Python behaviour. *)
  Fixpoint groot_loop (fuel : nat) (path : string) (s : groot_state) : res groot_state * dir :=
    if found s || sysroot s then (Ok s, here s)
    else match fuel with
         | O => (Err ExcRuntime, here s)
         | S k => match groot_pass path s with
                  | (Ok s', _) => groot_loop k path s'
                  | (Err e, d) => (Err e, d)
                  end
         end.

  (** 2-34: the answer and the final working directory. *)
  Definition groot (path : string) (start : dir) : res unit * dir :=
    match groot_loop (length start + 2) path (GState start start start false false) with
    | (Err e, d) => (Err e, d)
    | (Ok s, d) => if sysroot s then (Err (ExcGeneric "Root directory not found."), start) else (Ok tt, d)
    end.
End Groot.
