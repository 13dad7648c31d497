(** Model of /repo/dolo/misc/caching.py. *)
From Coq Require Import String Reals List Arith ZArith Bool.
From Verif.Base Require Import Prelude.
Import ListNotations.

(** Python values passed as arguments.  [VOpaque] is an object which is neither hashable nor a mapping nor
    iterable; [VTypeErr a] a TypeError instance living at address [a]; [VArray] a numpy array (shape and
    entries in order).  Sets, generators and user-defined containers are left out. *)
Inductive pyval : Type :=
| VNone
| VBool (b : bool)
| VInt (z : Z)
| VFloat (r : R)
| VStr (s : string)
| VTuple (l : list pyval)
| VList (l : list pyval)
| VDict (items : list (pyval * pyval))
| VFrozen (l : list pyval)
| VArray (sh : list nat) (data : list R)
| VObj (id : nat)
| VOpaque (id : nat)
| VTypeErr (addr : nat).

(** Does [hash(v)] succeed?  A tuple is hashable when its components are. *)
Fixpoint can_hash (v : pyval) : bool :=
  match v with
  | VTuple l => forallb can_hash l
  | VList _ | VDict _ | VArray _ _ | VOpaque _ => false
  | _ => true
  end.

(** 144-154 hashable.  [addr] gives the address of the TypeError instance created for an opaque object.  Tuples
    are instances of collections.abc.Hashable whatever they contain.  Building the frozenset hashes its
    elements. *)
Fixpoint hashable (addr : nat -> nat) (v : pyval) : res pyval :=
  match v with
  | VArray _ data => Ok (VTuple (map VFloat data))
  | VDict items =>
      bind ((fix go (it : list (pyval * pyval)) : res (list pyval) :=
               match it with
               | [] => Ok []
               | (k, x) :: r => bind (hashable addr x) (fun hx => bind (go r) (fun hr => Ok (VTuple [k; hx] :: hr)))
               end) items)
           (fun l => if forallb can_hash l then Ok (VFrozen l) else Err ExcType)
  | VList l =>
      bind ((fix go (it : list pyval) : res (list pyval) :=
               match it with
               | [] => Ok []
               | x :: r => bind (hashable addr x) (fun hx => bind (go r) (fun hr => Ok (hx :: hr)))
               end) l)
           (fun l' => Ok (VTuple l'))
  | VOpaque id => Ok (VTypeErr (addr id))
  | _ => Ok v
  end.

Fixpoint hashable_all (addr : nat -> nat) (l : list pyval) : res (list pyval) :=
  match l with
  | [] => Ok []
  | x :: r => bind (hashable addr x) (fun hx => bind (hashable_all addr r) (fun hr => Ok (hx :: hr)))
  end.

(** Positional arguments and keyword arguments of a call. *)
Definition call_args : Type := (list pyval * list (string * pyval))%type.
Definition kwargs_dict (kw : list (string * pyval)) : pyval := VDict (map (fun p => (VStr (fst p), snd p)) kw).

(** 16-19 and 60-62: the key.  [hash] is the interpreter's hash on hashable values. *)
Definition cache_tuple (addr : nat -> nat) (a : call_args) : res pyval :=
  bind (hashable_all addr (fst a)) (fun hh =>
  bind (hashable addr (kwargs_dict (snd a))) (fun h2 =>
  Ok (VTuple [VTuple hh; h2]))).
Definition cache_key (hash : pyval -> Z) (addr : nat -> nat) (a : call_args) : res Z :=
  bind (cache_tuple addr a) (fun t => if can_hash t then Ok (hash t) else Err ExcType).

(* ------------------------------------------------------------------ *)
(** ** memoized *)

Section Memo.
  Context {V : Type}.
  Variable hash : pyval -> Z.
  (** The wrapped function: its value or exception. *)
  Variable f : call_args -> res V.

  (** 11-12, 14-29: the cache is a dictionary from hash values to results.  The key is computed outside of the
      [try].  The boolean tells whether [f] was evaluated. *)
  Definition memo_call (addr : nat -> nat) (a : call_args) (cache : Z -> option V) : res V * bool * (Z -> option V) :=
    match cache_key hash addr a with
    | Err e => (Err e, false, cache)
    | Ok h =>
        match cache h with
        | Some v => (Ok v, false, cache)
        | None =>
            match f a with
            | Ok v => (Ok v, true, fun k => if Z.eqb k h then Some v else cache k)
            | Err e => (Err e, true, cache)
            end
        end
    end.

  (** A history of calls: addresses and arguments of each; the answers, in order. *)
  Fixpoint memo_run (calls : list ((nat -> nat) * call_args)) (cache : Z -> option V) : list (res V * bool) * (Z -> option V) :=
    match calls with
    | [] => ([], cache)
    | (addr, a) :: r =>
        let '(v, ev, cache') := memo_call addr a cache in
        let '(vs, cache'') := memo_run r cache' in
        ((v, ev) :: vs, cache'')
    end.
End Memo.

(* ------------------------------------------------------------------ *)
(** ** cachedondisk *)

(** A file of the cache directory: a complete pickle, or one whose writing did not finish. *)
Inductive file (V : Type) : Type :=
| Complete (v : V)
| Partial.
Arguments Complete {V} v.
Arguments Partial {V}.

(** The cache directory: files are named after the function and the hash. *)
Definition disk (V : Type) : Type := string -> Z -> option (file V).
Definition write_file {V} (name : string) (h : Z) (c : file V) (d : disk V) : disk V :=
  fun n k => if String.eqb n name && Z.eqb k h then Some c else d n k.

(** When the process dies during a call: before the file is opened, while it is being written, or after. *)
Inductive crash : Type := NoCrash | CrashBefore | CrashDuring | CrashAfter.

Section OnDisk.
  Context {V : Type}.
  Variable is_none : V -> bool.
  (** Whether pickle.dump succeeds on a value; otherwise it raises and leaves an unfinished file. *)
  Variable picklable : V -> bool.
  (** Exception raised by pickle.load on an unfinished file: EOFError or UnpicklingError, neither an IOError
      nor a TypeError. *)
  Definition eof : exn := ExcGeneric "EOFError: Ran out of input".

  (** 57-77.  [None] as answer: the process died. *)
  Definition disk_call (name : string) (f : call_args -> res V) (hash : pyval -> Z) (addr : nat -> nat) (a : call_args)
             (c : crash) (d : disk V) : option (res V) * disk V :=
    match cache_key hash addr a with
    | Err e => (Some (Err e), d)
    | Ok h =>
        match d name h with
        | Some (Complete v) => (Some (Ok v), d)
        | Some Partial => (Some (Err eof), d)
        | None =>
            match f a with
            | Err e => (Some (Err e), d)
            | Ok v =>
                if is_none v then (Some (Ok v), d)
                else match c with
                     | CrashBefore => (None, d)
                     | CrashDuring => (None, write_file name h Partial d)
                     | CrashAfter => (None, if picklable v then write_file name h (Complete v) d else write_file name h Partial d)
                     | NoCrash => if picklable v then (Some (Ok v), write_file name h (Complete v) d)
                                  else (Some (Err ExcType), write_file name h Partial d)
                     end
            end
        end
    end.

  (** 88-98 clear_cache: removes the files of a function, or all of them ([None] or the empty name). *)
  Definition clear_cache (name : option string) (d : disk V) : disk V :=
    fun n k => match name with
               | Some s => if String.eqb s "" then None else if String.eqb n s then None else d n k
               | None => None
               end.

  (** A history: calls by possibly many processes (each with its own hash function: hashing of strings is
      randomised) to possibly many functions, and clearings. *)
  Inductive disk_event : Type :=
  | ECall (name : string) (f : call_args -> res V) (hash : pyval -> Z) (addr : nat -> nat) (a : call_args) (c : crash)
  | EClear (name : option string).

  Fixpoint disk_run (evs : list disk_event) (d : disk V) : list (option (res V)) * disk V :=
    match evs with
    | [] => ([], d)
    | ECall name f hash addr a c :: r =>
        let '(v, d') := disk_call name f hash addr a c d in
        let '(vs, d'') := disk_run r d' in (v :: vs, d'')
    | EClear name :: r => let '(vs, d') := disk_run r (clear_cache name d) in (None :: vs, d')
    end.

  (** 104-138 DiskDictionary.  The file is opened in text mode: pickle.dump always raises TypeError after the file
      has been created empty; reading always fails and answers None. *)
  Definition diskdict_key (hash : pyval -> Z) (addr : nat -> nat) (key : list pyval) : res Z :=
    bind (hashable_all addr key) (fun hh => if can_hash (VTuple hh) then Ok (hash (VTuple hh)) else Err ExcType).
  Definition diskdict_set (hash : pyval -> Z) (addr : nat -> nat) (fun_name : string) (key : list pyval) (v : V) (d : disk V) : res unit * disk V :=
    match diskdict_key hash addr key with
    | Err e => (Err e, d)
    | Ok h => (Err ExcType, write_file fun_name h Partial d)
    end.
  Definition diskdict_get (hash : pyval -> Z) (addr : nat -> nat) (fun_name : string) (key : list pyval) (d : disk V) : res (option V) :=
    bind (diskdict_key hash addr key) (fun _ => Ok None).
End OnDisk.
