(** C152: what print(model) shows. *)
From Coq Require Import String Ascii List Bool Reals Arith.
From Verif Require Import Base.Prelude Base.Dict Model.Verbose Model.ModelPrint Spec.ModelPrint Proofs.ModelPrintProofs.
Import ListNotations.
Open Scope string_scope.

(** Each equation of the blocks "transition" and "arbitrage" has its line, under the name of its block, with its number,
    the value of its residual and its text; the value is coloured if and only if the residual exceeds 1e-8. *)
Theorem C152_lines : forall fixed4, (forall v, plain (fixed4 v)) ->
  forall name type file equations defs tr ar lines,
    model_str false fixed4 name type file equations defs tr ar = Ok lines ->
    forall g rs, (g = "transition" /\ rs = tr \/ g = "arbitrage" /\ rs = ar) ->
    exists eqs start, dget equations g = Some eqs /\ nth_error lines start = Some g /\
      forall i eq, nth_error eqs i = Some eq -> exists v middle, nth_error rs i = Some v /\
        nth_error lines (S start + i) = Some ((" " ++ pad_right 2 (nat_str (S i)) ++ " : ") ++ middle ++ " : " ++ eq) /\
        (mentions esc middle = true <-> exists r, v = Some r /\ (1 / 100000000 < Rabs r)%R).
Proof. exact equation_shown_plain. Qed.
Print Assumptions C152_lines.

(** There are as many coloured lines as equations which do not hold. *)
Theorem C152_count : forall fixed4, (forall v, plain (fixed4 v)) ->
  forall name type file equations defs tr ar lines,
    model_str false fixed4 name type file equations defs tr ar = Ok lines ->
    plain name -> plain type -> plain file -> (forall g eqs, dget equations g = Some eqs -> Forall plain eqs) ->
    Forall (fun e => plain (fst e) /\ plain (snd e)) defs ->
    exists et ea, dget equations "transition" = Some et /\ dget equations "arbitrage" = Some ea /\
      length (filter (mentions esc) lines) = (count_off (firstn (length et) tr) + count_off (firstn (length ea) ar))%nat.
Proof. exact red_lines. Qed.
Print Assumptions C152_count.

Example C152_case : exists lines,
  model_str false demo_text "m" "dtcc" "m.yaml" demo_equations [("y", "k")] [Some 0%R] [Some (1/2)%R; Some 0%R] = Ok lines /\
  length (filter (mentions esc) lines) = 1%nat.
Proof. exact demo_flags. Qed.

(** A model can be printed if and only if it has both blocks, and no less residuals than equations. *)
Theorem C152_total : forall fixed4 name type file equations defs tr ar,
  (exists lines, model_str false fixed4 name type file equations defs tr ar = Ok lines) <->
  (exists et ea, dget equations "transition" = Some et /\ dget equations "arbitrage" = Some ea /\
     (length et <= length tr)%nat /\ (length ea <= length ar)%nat).
Proof. exact model_str_total. Qed.
Print Assumptions C152_total.

(** Otherwise a missing block raises KeyError and a missing residual IndexError, in the order of the blocks. *)
Theorem C152_errors : forall disabled fixed4 name type file equations defs tr ar,
  (dget equations "transition" = None -> model_str disabled fixed4 name type file equations defs tr ar = Err ExcKey) /\
  (forall et, dget equations "transition" = Some et ->
     ((length tr < length et)%nat -> model_str disabled fixed4 name type file equations defs tr ar = Err ExcIndex) /\
     ((length et <= length tr)%nat ->
        (dget equations "arbitrage" = None -> model_str disabled fixed4 name type file equations defs tr ar = Err ExcKey) /\
        (forall ea, dget equations "arbitrage" = Some ea -> (length ar < length ea)%nat ->
           model_str disabled fixed4 name type file equations defs tr ar = Err ExcIndex))).
Proof. exact model_str_errors. Qed.
Print Assumptions C152_errors.

(** The table of notebooks can be made if and only if the blocks which have residuals have enough of them; a block
    "arbitrage_exp" never has any. *)
Theorem C152_table_total : forall fixed4 fixed3 tex equations defs tr ar,
  (exists rows, model_html fixed4 fixed3 tex equations defs tr ar = Ok rows) <->
  (forall eqs, (In ("transition", eqs) equations -> (length eqs <= length tr)%nat) /\
               (In ("arbitrage", eqs) equations -> (length eqs <= length ar)%nat) /\
               (In ("arbitrage_exp", eqs) equations -> eqs = [])).
Proof. exact table_total. Qed.
Print Assumptions C152_table_total.

Theorem C152_table_errors : forall fixed4 fixed3 tex equations defs tr ar e,
  model_html fixed4 fixed3 tex equations defs tr ar = Err e ->
  (e = ExcIndex /\ exists eqs, (In ("transition", eqs) equations /\ (length tr < length eqs)%nat) \/
                               (In ("arbitrage", eqs) equations /\ (length ar < length eqs)%nat)) \/
  (e = ExcKey /\ exists eqs, In ("arbitrage_exp", eqs) equations /\ eqs <> []).
Proof. exact table_errors. Qed.
Print Assumptions C152_table_errors.

Example C152_errors_case :
  model_str false demo_text "m" "dtcc" "m.yaml" demo_equations [] [Some 0%R] [Some 0%R] = Err ExcIndex /\
  model_html demo_text demo_text (fun e => e) demo_equations [] [Some 0%R] [Some 0%R] = Err ExcIndex.
Proof. split; reflexivity. Qed.

(** The table of notebooks flags the same equations as the text. *)
Theorem C152_same : forall fixed4 fixed3 tex name type file equations defs tr ar lines rows,
    (forall v, plain (fixed4 v)) -> (forall v, prefix "<" (fixed3 v) = false) ->
    model_str false fixed4 name type file equations defs tr ar = Ok lines ->
    model_html fixed4 fixed3 tex equations defs tr ar = Ok rows ->
    forall g rs, (g = "transition" /\ rs = tr \/ g = "arbitrage" /\ rs = ar) ->
    exists eqs start first, dget equations g = Some eqs /\ nth_error lines start = Some g /\
      forall i eq, nth_error eqs i = Some eq -> plain eq -> exists line cell,
        nth_error lines (S start + i) = Some line /\
        nth_error rows (first + i) = Some ((if Nat.eqb i 0 then g else "")%string, tex eq, cell) /\
        mentions esc line = prefix "<" cell.
Proof. exact same_flags. Qed.
Print Assumptions C152_same.

Example C152_same_case : exists rows,
  model_html demo_text demo_text (fun e => e) demo_equations [("y", "k")] [Some 0%R] [Some (1/2)%R; Some 0%R] = Ok rows /\
  (forall v, plain (demo_text v)) /\ forall v, prefix "<" (demo_text v) = false.
Proof.
  eexists. split; [reflexivity|]. split; [exact demo_plain|]. intros [r|]; [|reflexivity]. unfold demo_text.
  destruct (Req_EM_T r 0); reflexivity.
Qed.

(** Refuted: "print(model) shows the equations of the model".  Blocks other than these two, among which the bounds of
    complementarity conditions and the value function, are not shown. *)
Theorem C152_hidden_refuted : forall disabled fixed4 name type file equations defs tr ar g eqs,
  g <> "transition" -> g <> "arbitrage" ->
  model_str disabled fixed4 name type file (dset equations g eqs) defs tr ar =
  model_str disabled fixed4 name type file equations defs tr ar.
Proof. exact other_blocks_hidden. Qed.
Print Assumptions C152_hidden_refuted.

(** Refuted: "an equation that is not coloured holds at the calibrated values".  A residual that is not a number is not
    coloured. *)
Theorem C152_nan_refuted : forall disabled fixed4 i eq,
  equation_lines disabled fixed4 i [eq] (Some [None]) =
    Ok [(" " ++ pad_right 2 (nat_str (S i)) ++ " : ") ++ fixed4 None ++ " : " ++ eq].
Proof. exact nan_hidden. Qed.
Print Assumptions C152_nan_refuted.
