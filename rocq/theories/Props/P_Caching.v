(** Properties of the caches (dolo/misc/caching.py): C53, C54, C55. *)
From Coq Require Import String Reals List Arith ZArith Bool Lia.
From Verif.Base Require Import Prelude.
From Verif.Model Require Import Caching.
From Verif.Spec Require Import Caching.
From Verif.Proofs Require Import CachingProofs.
Import ListNotations.

(** C53. In every history of calls of a memoized function, each call answers what the function answers on its
    arguments (value or exception), provided calls sharing a hash have the same answer. *)
Theorem C53_correct_partial : forall V hash (f : call_args -> res V) calls, no_clash hash f calls ->
    forall i addr a h, nth_error calls i = Some (addr, a) -> cache_key hash addr a = Ok h ->
      exists ev, nth_error (fst (memo_run hash f calls (fun _ => None))) i = Some (f a, ev).
Proof. exact @memo_correct. Qed.
Print Assumptions C53_correct_partial.

(** The proviso holds when positional arguments are integers, strings, None and tuples of these, and the hashes of
    the histories' keys do not collide. *)
Theorem C53_plain : forall V hash (f : call_args -> res V) calls,
    (forall c, In c calls -> forallb plain (fst (snd c)) = true /\ snd (snd c) = []) ->
    (forall c1 c2, In c1 calls -> In c2 calls ->
       hash (VTuple [VTuple (fst (snd c1)); VFrozen []]) = hash (VTuple [VTuple (fst (snd c2)); VFrozen []]) ->
       same (VTuple (fst (snd c1))) (VTuple (fst (snd c2)))) ->
    no_clash hash f calls.
Proof. exact @memo_plain. Qed.
Print Assumptions C53_plain.
(** A history of two calls, with a hash which separates them. *)
Definition toy_hash (v : pyval) : Z := match v with VTuple [VTuple [VInt z]; _] => z | _ => 0%Z end.
Example C53_nontrivial : no_clash toy_hash (fun a => Ok (length (fst a)))
    [(fun n => n, ([VInt 1], [])); (fun n => n, ([VInt 2], [])); (fun n => n, ([VInt 1], []))].
Proof.
  apply memo_plain.
  - intros c [<-|[<-|[<-|[]]]]; split; reflexivity.
  - intros c1 c2 [<-|[<-|[<-|[]]]] [<-|[<-|[<-|[]]]] H; try discriminate; apply same_refl.
Qed.

(** A call which shares its key with an earlier successful call is answered without evaluating the function
    again. *)
Theorem C53_evaluated_once : forall V hash (f : call_args -> res V) calls i j addri ai addrj aj h v ev,
    (i < j)%nat -> nth_error calls i = Some (addri, ai) -> nth_error calls j = Some (addrj, aj) ->
    cache_key hash addri ai = Ok h -> cache_key hash addrj aj = Ok h ->
    nth_error (fst (memo_run hash f calls (fun _ => None))) i = Some (Ok v, ev) ->
    nth_error (fst (memo_run hash f calls (fun _ => None))) j = Some (Ok v, false).
Proof. exact @memo_once. Qed.
Print Assumptions C53_evaluated_once.

(** The general claim is false.  With a hash of tuples computed from the hashes of the components, and
    hash(-1) = hash(-2) as in CPython, the memoized identity answers -1 on -2. *)
Theorem C53_minus_one_refuted : forall (hash : pyval -> Z) (g : list Z -> Z) addr1 addr2,
    (forall l, hash (VTuple l) = g (map hash l)) -> hash (VInt (-1)) = hash (VInt (-2)) ->
    fst (memo_run hash (fun a => Ok (nth 0 (fst a) VNone)) [(addr1, ([VInt (-1)], [])); (addr2, ([VInt (-2)], []))] (fun _ => None))
    = [(Ok (VInt (-1)), true); (Ok (VInt (-1)), false)].
Proof. exact memo_collision. Qed.
Print Assumptions C53_minus_one_refuted.

(** Without any collision: lists and tuples, True and 1, arrays of different shapes, and two unrelated opaque
    objects (when the address of the discarded TypeError is used again) share their entry. *)
Theorem C53_confused_refuted : forall hash addr1 addr2, respects_equality hash ->
    let identity := fun x : call_args => Ok (nth 0 (fst x) VNone) in
    let answers := fun a b => fst (memo_run hash identity [(addr1, ([a], [])); (addr2, ([b], []))] (fun _ => None)) in
    answers (VTuple [VInt 1]) (VList [VInt 1]) = [(Ok (VTuple [VInt 1]), true); (Ok (VTuple [VInt 1]), false)] /\
    answers (VInt 1) (VBool true) = [(Ok (VInt 1), true); (Ok (VInt 1), false)] /\
    (forall data, answers (VArray [2; 1] data) (VArray [1; 2] data) = [(Ok (VArray [2; 1] data), true); (Ok (VArray [2; 1] data), false)]) /\
    (addr1 0 = addr2 1 -> answers (VOpaque 0) (VOpaque 1) = [(Ok (VOpaque 0), true); (Ok (VOpaque 0), false)]).
Proof.
  intros hash addr1 addr2 HR. cbv zeta. repeat split.
  - eapply memo_shared; [exact HR|reflexivity|reflexivity|apply same_refl|reflexivity].
  - eapply memo_shared; [exact HR|reflexivity|reflexivity| |reflexivity]. eapply same_num; reflexivity.
  - intros data. eapply memo_shared; [exact HR|reflexivity|reflexivity|apply same_refl|].
    cbn [can_hash]. induction data as [|r data IH]; [reflexivity|exact IH].
  - intros E. eapply memo_shared; [exact HR|reflexivity|reflexivity| |reflexivity]. rewrite E. apply same_refl.
Qed.
Print Assumptions C53_confused_refuted.
Example C53_confused_nontrivial : respects_equality (fun _ => 0%Z).
Proof. exact respects_example. Qed.

(** The documented fallback ("better to not cache than to blow up") is not reached: an argument which cannot be
    hashed raises TypeError and the function is not called. *)
Theorem C53_unhashable_refuted : forall V hash (f : call_args -> res V) calls i addr l kw,
    nth_error calls i = Some (addr, ([VTuple [VList l]], kw)) ->
    nth_error (fst (memo_run hash f calls (fun _ => None))) i = Some (Err ExcType, false).
Proof. intros V hash f calls i addr l kw H. exact (memo_raises hash f calls ExcType i addr _ H (tuple_of_list_key hash addr l kw)). Qed.
Print Assumptions C53_unhashable_refuted.

(** C54. Disk cache, for all histories of calls (of any functions, by any processes) and clearings, and all crash
    points except during a write: every answer is the function's, provided calls sharing a file have the same
    answer and values can be pickled. *)
Theorem C54_correct_partial : forall V (is_none picklable : V -> bool) evs, consistent evs -> complete_writes picklable evs ->
    forall i n f hs ad a c h r, nth_error evs i = Some (ECall n f hs ad a c) -> cache_key hs ad a = Ok h ->
      nth_error (fst (disk_run is_none picklable evs empty_disk)) i = Some (Some r) -> r = f a.
Proof. exact @disk_correct. Qed.
Print Assumptions C54_correct_partial.
Theorem C54_answers : forall V (is_none picklable : V -> bool) evs d i n f hs ad a,
    nth_error evs i = Some (ECall n f hs ad a NoCrash) ->
    exists r, nth_error (fst (disk_run is_none picklable evs d)) i = Some (Some r).
Proof. exact @disk_answers. Qed.
Print Assumptions C54_answers.
Example C54_nontrivial :
    let f := fun a : call_args => Ok (length (fst a)) in
    let evs := [ECall "f" f toy_hash (fun n => n) ([VInt 1], []) CrashBefore; ECall "f" f toy_hash (fun n => n) ([VInt 1], []) CrashAfter;
                EClear (Some "g"%string); ECall "f" f toy_hash (fun n => n) ([VInt 1], []) NoCrash] in
    consistent evs /\ complete_writes (fun _ => true) evs.
Proof.
  cbv zeta. split.
  - intros n f1 h1 d1 a1 c1 f2 h2 d2 a2 c2 h H1 H2 _ _.
    destruct H1 as [H1|[H1|[H1|[H1|[]]]]]; try discriminate; injection H1 as <- <- <- <- <- <-;
      destruct H2 as [H2|[H2|[H2|[H2|[]]]]]; try discriminate; injection H2 as <- <- <- <- <-; reflexivity.
  - intros n f h d a c H. split; [|reflexivity].
    destruct H as [H|[H|[H|[H|[]]]]]; try discriminate; injection H as <- <- <- <- <- <-; discriminate.
Qed.

(** None is never stored: it is computed again by the next call, and the cache is unchanged. *)
Theorem C54_none_recomputed : forall V (is_none picklable : V -> bool) d n f hs ad a c h v,
    cache_key hs ad a = Ok h -> d n h = None -> f a = Ok v -> is_none v = true ->
    disk_call is_none picklable n f hs ad a c d = (Some (Ok v), d).
Proof. exact @disk_none. Qed.
Print Assumptions C54_none_recomputed.

(** A process which dies while writing a result leaves a file which makes every later call with this key, in
    every process, raise EOFError until the cache is cleared. *)
Theorem C54_crash_refuted : forall V (is_none picklable : V -> bool) evs n f hs ad a h v,
    no_clear evs -> cache_key hs ad a = Ok h -> f a = Ok v -> is_none v = false ->
    forall i f' hs' ad' a' c', nth_error evs i = Some (ECall n f' hs' ad' a' c') -> cache_key hs' ad' a' = Ok h ->
      nth_error (fst (disk_run is_none picklable (ECall n f hs ad a CrashDuring :: evs) empty_disk)) (S i) = Some (Some (Err eof)).
Proof. exact @disk_crash_poisons. Qed.
Print Assumptions C54_crash_refuted.

(** Two functions with the same name share their files: the second answers the first's value. *)
Theorem C54_same_name_refuted : forall V (is_none picklable : V -> bool) n f g hs ad a h v,
    cache_key hs ad a = Ok h -> f a = Ok v -> is_none v = false -> picklable v = true ->
    fst (disk_run is_none picklable [ECall n f hs ad a NoCrash; ECall n g hs ad a NoCrash] empty_disk) = [Some (Ok v); Some (Ok v)].
Proof. exact @disk_same_name. Qed.
Print Assumptions C54_same_name_refuted.

(** DiskDictionary never stores anything: writing raises TypeError, reading then answers None. *)
Theorem C54_disk_dictionary_refuted : forall V hash addr name key (v : V) d h, diskdict_key hash addr key = Ok h ->
    fst (diskdict_set hash addr name key v d) = Err ExcType /\
    diskdict_get hash addr name key (snd (diskdict_set hash addr name key v d)) = Ok (@None V).
Proof. exact @diskdict_never. Qed.
Print Assumptions C54_disk_dictionary_refuted.

(** C55. Equal arguments have equal keys (whatever the order of dictionaries), for all values without opaque
    objects. *)
Theorem C55_equal_keys : forall addr addr' a b ka, same a b -> no_opaque a = true -> hashable addr a = Ok ka ->
    exists kb, hashable addr' b = Ok kb /\ same ka kb.
Proof. exact hashable_same. Qed.
Print Assumptions C55_equal_keys.
Example C55_nontrivial :
    same (VDict [(VStr "a", VList [VInt 1; VArray [1] [2%R]]); (VStr "b", VNone)]) (VDict [(VStr "b", VNone); (VStr "a", VList [VBool true; VArray [1] [2%R]])])
    /\ no_opaque (VDict [(VStr "a", VList [VInt 1; VArray [1] [2%R]]); (VStr "b", VNone)]) = true
    /\ exists k, hashable (fun n => n) (VDict [(VStr "a", VList [VInt 1; VArray [1] [2%R]]); (VStr "b", VNone)]) = Ok k.
Proof.
  split; [|split; [reflexivity|eexists; reflexivity]]. constructor.
  apply (items_cons _ _ _ _ [(VStr "b", VNone)] [(VStr "b", VNone)] []).
  - constructor.
  - constructor. constructor; [eapply same_num; reflexivity|]. constructor; [constructor|constructor].
  - apply (items_cons _ _ _ _ [] [] []); constructor.
Qed.

(** The key can be hashed when tuples and dictionary keys can. *)
Theorem C55_key_hashable : forall addr v, hashable_parts v = true -> exists k, hashable addr v = Ok k /\ can_hash k = true.
Proof.
  intros addr v H. destruct (hashable_total addr v H) as (k & E). exists k. exact (conj E (hashable_can_hash addr v k H E)).
Qed.
Print Assumptions C55_key_hashable.

(** In general it cannot: a tuple holding a list is returned as it is. *)
Theorem C55_unhashable_key_refuted : forall addr l, exists k, hashable addr (VTuple [VList l]) = Ok k /\ can_hash k = false.
Proof. intros addr l. exists (VTuple [VList l]). split; reflexivity. Qed.
Print Assumptions C55_unhashable_key_refuted.

(** Opaque objects: no exception; the key is a new TypeError instance, so that the same object has two different
    keys at two calls. *)
Theorem C55_opaque_refuted : forall addr addr' i, addr i <> addr' i ->
    exists k k', hashable addr (VOpaque i) = Ok k /\ hashable addr' (VOpaque i) = Ok k' /\ ~ same k k'.
Proof.
  intros addr addr' i H. exists (VTypeErr (addr i)), (VTypeErr (addr' i)). repeat split. intros K. inversion K; subst; [discriminate|congruence].
Qed.
Print Assumptions C55_opaque_refuted.
