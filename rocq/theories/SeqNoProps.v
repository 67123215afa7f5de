(** C13: sequence-number comparison. *)
From Coq Require Import ZArith Bool.
From Verif Require Import SeqNoModel SeqNoProofs.
Open Scope Z_scope.

(** [x] and [y] are true, unbounded positions; what travels are their residues
    modulo 2^32. *)
Theorem before_exact x y : Z.abs (x - y) < 2 ^ 31 ->
  before (x mod 2 ^ 32) (y mod 2 ^ 32) = (x <? y).
Proof. exact (before_true x y). Qed.
Print Assumptions before_exact.

Theorem after_exact x y : Z.abs (x - y) < 2 ^ 31 ->
  after (x mod 2 ^ 32) (y mod 2 ^ 32) = (x >? y).
Proof. exact (after_true x y). Qed.
Print Assumptions after_exact.

(** Exactly one of before, after and equal, except at distance 2^31. *)
Theorem seqno_trichotomy a b : 0 <= a < 2 ^ 32 -> 0 <= b < 2 ^ 32 -> (a - b) mod 2 ^ 32 <> 2 ^ 31 ->
  (before a b = true /\ after a b = false /\ a <> b) \/
  (before a b = false /\ after a b = true /\ a <> b) \/
  (before a b = false /\ after a b = false /\ a = b).
Proof. exact (trichotomy a b). Qed.
Print Assumptions seqno_trichotomy.

(** At distance 2^31 both hold. *)
Theorem seqno_half_distance a b : (a - b) mod 2 ^ 32 = 2 ^ 31 -> before a b = true /\ after a b = true.
Proof. exact (half_distance a b). Qed.
Print Assumptions seqno_half_distance.

Example before_ex : Z.abs (2 ^ 32 - 3 - (2 ^ 32 + 5)) < 2 ^ 31 /\
  before ((2 ^ 32 - 3) mod 2 ^ 32) ((2 ^ 32 + 5) mod 2 ^ 32) = true /\
  (2 ^ 32 + 5) mod 2 ^ 32 = 5 /\ after 5 (2 ^ 32 - 3) = true.
Proof. vm_compute. auto. Qed.
Example half_ex : (5 - (2 ^ 31 + 5)) mod 2 ^ 32 = 2 ^ 31.
Proof. reflexivity. Qed.
