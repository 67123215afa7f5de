(* What is assumed of the network and the users of a reliable flow, and what
   is claimed, for the packets written at end A and read at end B.  (Either
   end can be called A.) *)
From Coq Require Import NArith ZArith List Bool.
From Verif Require Import SeqNoModel FrctModel.
Import ListNotations.
Open Scope Z_scope.

(* Every history of a flow in which each action satisfies [ok]. *)
Inductive history (ok : flow -> action -> Prop) (s0 : flow) : flow -> Prop :=
| h_start : history ok s0 s0
| h_step : forall s ac s', history ok s0 s -> ok s ac -> flow_step s ac = Ok s' ->
    history ok s0 s'.

(* No packet survives in the network for half the sequence space: fewer
   than 2^31 packets have been written since the one that arrives, or since
   the last one that is acknowledged, and fewer than 2^31 wait for their
   acknowledgement. *)
Definition half_space (s : flow) (ac : action) : Prop :=
  match ac with
  | (A, _, Write _ _) =>
      u32_sub (seqno (snd_cr (fr (ea s)))) (lwe (snd_cr (fr (ea s)))) < 2 ^ 31 - 1
  | (A, _, Recv fl) => p_ack (f_hdr fl) = true -> zlen (wrote (ea s)) - f_got fl < 2 ^ 31
  | (B, _, Recv fl) => p_data (f_hdr fl) = true -> zlen (wrote (ea s)) - f_no fl < 2 ^ 31
  | _ => True
  end.

(* When A starts a new run, because it has not written for a long time, B's
   receive timer has run out as well, and nothing else from A reaches B
   before the first packet of the run. *)
Definition run_heard (s : flow) (ac : action) : Prop :=
  match ac with
  | (A, now, Write _ _) =>
      snd_inactive (fr (ea s)) now = true -> rcv_inactive (fr (eb s)) now = true
  | (B, _, Recv fl) => await s = true -> p_data (f_hdr fl) = true
  | _ => True
  end.

(* What was read at B is the beginning of what was written at A. *)
Definition in_order (s : flow) : Prop :=
  exists rest, map fst (wrote (ea s)) = got (eb s) ++ rest.
