(** Arithmetic of mixed-radix indices. *)
From Coq Require Import Arith Lia.

Lemma div_mod_prod : forall k a b, b <> 0 -> a <> 0 -> (k / b) mod a = (k mod (a * b)) / b.
Proof.
  intros k a b Hb Ha.
  pose proof (Nat.div_mod k (a * b)) as H.
  assert (Hab : a * b <> 0) by nia. specialize (H Hab).
  remember (k / (a * b)) as q. remember (k mod (a * b)) as r.
  assert (Hr : r < a * b) by (subst r; apply Nat.mod_upper_bound; assumption).
  assert (Hd : k / b = q * a + r / b).
  { rewrite H. replace (a * b * q + r) with (q * a * b + r) by ring.
    rewrite Nat.div_add_l by assumption. reflexivity. }
  rewrite Hd. rewrite Nat.add_comm, Nat.mod_add by assumption.
  apply Nat.mod_small. apply Nat.div_lt_upper_bound; [assumption|]. lia.
Qed.

Lemma mod_mod_prod : forall k a b, b <> 0 -> a <> 0 -> (k mod (a * b)) mod b = k mod b.
Proof.
  intros k a b Hb Ha.
  pose proof (Nat.div_mod k (a * b)) as H.
  assert (Hab : a * b <> 0) by nia. specialize (H Hab).
  remember (k / (a * b)) as q. remember (k mod (a * b)) as r.
  rewrite H. replace (a * b * q + r) with (r + q * a * b) by ring.
  symmetry. apply Nat.mod_add. assumption.
Qed.

Lemma div_lt_prod : forall k a b, k < a * b -> k / b < a.
Proof.
  intros k a b H. apply Nat.div_lt_upper_bound; [nia|]. rewrite Nat.mul_comm; exact H.
Qed.
