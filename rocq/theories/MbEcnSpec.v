(** Specification for the congestion avoidance properties: which histories of a
    flow are considered. *)
From Coq Require Import List NArith ZArith Bool.
From Verif Require Import MbEcnModel.
Import ListNotations.
Open Scope N_scope.

(** Marks are 8 bits wide, and the remote side reports only levels at most [m]. *)
Definition marks_ok (m : N) (e : ev) : Prop :=
  match e with Snd _ _ => True | Rcv ecn => ecn < 256 | Ece ece => ece <= m end.

(** A paced history: the clock does not run backwards and stays below 2^56 ns
    (more than two years), a packet is shorter than 64 KiB, and a packet of [len]
    bytes keeps the sender busy for at least 2048 + len nanoseconds.  [t] is the
    earliest time for the next packet. *)
Fixpoint paced (t : N) (es : list ev) : Prop :=
  match es with
  | [] => True
  | Snd now len :: r => t <= now /\ now < 2 ^ 56 /\ len < 2 ^ 16 /\ paced (now + 2048 + len) r
  | _ :: r => paced t r
  end.

(** Executable version, for the examples. *)
Fixpoint pacedb (t : N) (es : list ev) : bool :=
  match es with
  | [] => true
  | Snd now len :: r =>
      (t <=? now) && (now <? 2 ^ 56) && (len <? 2 ^ 16) && pacedb (now + 2048 + len) r
  | _ :: r => pacedb t r
  end.
(** [k] packets of [len] bytes, the first at [t], then one every [gap] ns. *)
Fixpoint burst (k : nat) (t gap len : N) : list ev :=
  match k with O => [] | S k => Snd t len :: burst k (t + gap) gap len end.
