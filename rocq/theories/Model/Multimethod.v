(** Model of /repo/dolo/misc/multimethod.py (signature, multimethod).  Generic subscripted types, pending forward
    references and [overload] are left out. *)
From Coq Require Import String List Arith Bool.
From Verif.Base Require Import Prelude.
Import ListNotations.

Section MM.
  (** Classes, with issubclass, the method resolution order and [object]. *)
  Variable cls : Type.
  Variable cls_eqb : cls -> cls -> bool.
  Variable sub : cls -> cls -> bool.
  Variable mro : cls -> list cls.
  Variable object : cls.

  Definition sig : Type := list cls.
  Fixpoint sig_eqb (a b : sig) : bool :=
    match a, b with
    | [], [] => true
    | x :: a', y :: b' => cls_eqb x y && sig_eqb a' b'
    | _, _ => false
    end.
  (** 110-111 [a <= b]: all(map(issubclass, b, a)). *)
  Definition sig_le (a b : sig) : bool :=
    Nat.leb (length a) (length b) && forallb (fun p => sub (fst p) (snd p)) (combine b a).
  (** 113-114 *)
  Definition sig_lt (a b : sig) : bool := negb (sig_eqb a b) && sig_le a b.
  Definition sig_mem (a : sig) (l : list sig) : bool := existsb (sig_eqb a) l.

  (** Position of the first occurrence in a list. *)
  Fixpoint index (c : cls) (l : list cls) : nat :=
    match l with
    | [] => 0
    | x :: r => if cls_eqb c x then 0 else S (index c r)
    end.
  (** 116-121 [types - key]. *)
  Definition distance (types key : sig) : list nat :=
    map (fun p => let m := mro (fst p) in index (if existsb (cls_eqb (snd p)) m then snd p else object) m) (combine types key).

  (** A registered method: its signature, the [parents] attribute of the signature, the function. *)
  Record entry : Type := Entry { e_sig : sig; e_parents : list sig; e_fun : nat }.
  (** The dictionary: registered methods, and cached answers (keys which are not signatures). *)
  Record table : Type := Table { methods : list entry; cached : list (sig * nat) }.

  (** 154-157 *)
  Definition parents (es : list entry) (types : sig) : list sig :=
    let low := filter (fun e => sig_lt (e_sig e) types) es in
    map e_sig (filter (fun e => negb (existsb (fun p => sig_mem (e_sig e) (e_parents p)) low)) low).

  (** 165-176.  Assigning to an existing key of a dict keeps the existing key object. *)
  Definition setitem (t : table) (types : sig) (f : nat) : table :=
    let par := parents (methods t) types in
    let es := map (fun e => if sig_lt types (e_sig e) && (match par with [] => true | _ => false end || existsb (fun p => sig_mem p (e_parents e)) par)
                            then Entry (e_sig e) (types :: filter (fun p => negb (sig_mem p par)) (e_parents e)) (e_fun e)
                            else e) (methods t) in
    if existsb (fun e => sig_eqb types (e_sig e)) es
    then Table (map (fun e => if sig_eqb types (e_sig e) then Entry (e_sig e) (e_parents e) f else e) es) []
    else Table (es ++ [Entry types par f]) [].

  (** 178-184: KeyError when the signature is not registered (the cache is emptied first). *)
  Fixpoint delete_loop (types : sig) (done todo : list entry) : list entry :=
    match todo with
    | [] => done
    | e :: r =>
        let e' := if sig_mem types (e_parents e) then Entry (e_sig e) (parents (done ++ todo) (e_sig e)) (e_fun e) else e in
        delete_loop types (done ++ [e']) r
    end.
  Definition delitem (t : table) (types : sig) : res unit * table :=
    if existsb (fun e => sig_eqb types (e_sig e)) (methods t)
    then (Ok tt, Table (delete_loop types [] (filter (fun e => negb (sig_eqb types (e_sig e))) (methods t))) [])
    else (Err ExcKey, Table (methods t) []).

  (** Comparison of tuples of integers. *)
  Fixpoint lex_ltb (a b : list nat) : bool :=
    match a, b with
    | [], [] => false
    | [], _ :: _ => true
    | _ :: _, [] => false
    | x :: a', y :: b' => if Nat.eqb x y then lex_ltb a' b' else Nat.ltb x y
    end.
  Fixpoint lex_min (m : list nat) (l : list (list nat)) : list nat :=
    match l with
    | [] => m
    | x :: r => lex_min (if lex_ltb x m then x else m) r
    end.
  Fixpoint nat_list_eqb (a b : list nat) : bool :=
    match a, b with
    | [], [] => true
    | x :: a', y :: b' => Nat.eqb x y && nat_list_eqb a' b'
    | _, _ => false
    end.

  Definition find_fun (es : list entry) (s : sig) : option nat :=
    match find (fun e => sig_eqb s (e_sig e)) es with Some e => Some (e_fun e) | None => None end.

  (** DispatchError. *)
  Definition dispatch_error : exn := ExcGeneric "DispatchError".

  (** 191-197: candidates at the smallest distance; they must be the same function. *)
  Definition resolve (es : list entry) (types : sig) : res nat :=
    match parents es types with
    | [] => Err dispatch_error
    | k0 :: ks =>
        let m := lex_min (distance types k0) (map (distance types) ks) in
        let keys := filter (fun k => nat_list_eqb (distance types k) m) (k0 :: ks) in
        let funs := map (fun k => match find_fun es k with Some f => f | None => 0 end) keys in
        match funs with
        | [] => Err dispatch_error
        | f :: r => if forallb (Nat.eqb f) r then Ok f else Err dispatch_error
        end
    end.

  (** 186-201: look up, else resolve and cache. *)
  Definition call (t : table) (types : sig) : res nat * table :=
    match find_fun (methods t) types with
    | Some f => (Ok f, t)
    | None =>
        match find (fun p => sig_eqb types (fst p)) (cached t) with
        | Some p => (Ok (snd p), t)
        | None =>
            match resolve (methods t) types with
            | Ok f => (Ok f, Table (methods t) (cached t ++ [(types, f)]))
            | Err e => (Err e, t)
            end
        end
    end.

  (** Histories. *)
  Inductive event : Type :=
  | Register (s : sig) (f : nat)
  | Delete (s : sig)
  | Call (types : sig).

  Definition step (t : table) (ev : event) : table :=
    match ev with
    | Register s f => setitem t s f
    | Delete s => snd (delitem t s)
    | Call types => snd (call t types)
    end.
  Definition run (evs : list event) : table := fold_left step evs (Table [] []).
  (** What a call answers after a history. *)
  Definition answer (evs : list event) (types : sig) : res nat := fst (call (run evs) types).
End MM.
