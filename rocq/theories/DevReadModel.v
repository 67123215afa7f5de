(* flow_read (src/lib/dev.c:1341-1447), which hands packets to the reader
   whole or, if partial reads are enabled, in pieces.  The packets that are
   ready on the flow are a queue: the rings and the retransmission layer
   below are modelled in RbuffModel and FrctModel.  Bytes are numbers. *)
From Coq Require Import NArith List Bool Arith.
Import ListNotations.

(* dev.c:73-74: part_idx is NO_PART, DONE_PART or the index of the packet
   that is being read; of that packet the bytes between head and tail. *)
Inductive part : Type := NO_PART | DONE_PART | Part (rest : list N).

(* dev.c:90-113 struct flow: whether it is allocated (info.id >= 0),
   FLOWFRNOPART in oflags, part_idx; and the packets that are ready. *)
Record rflow : Type := Rflow {
  allocated : bool;
  nopart : bool;
  part_idx : part;
  ready : list (list N)
}.

Inductive result : Type :=
  Bytes (l : list N)   (* the number of bytes, and the bytes in buf *)
| ENOTALLOC
| EAGAIN               (* non-blocking, or the wait was interrupted *)
| EMSGSIZE.

(* shm_du_buff.c head_release: the first n bytes are taken off. *)
Definition head_release (pkt : list N) (n : nat) : list N := skipn n pkt.

(* dev.c:1407-1446: from the packet on. *)
Definition read_packet (f : rflow) (q : list (list N)) (pkt : list N) (count : nat) : rflow * result :=
  let partrd := negb (nopart f) in
  let n := length pkt in
  if Nat.leb n count then
    (Rflow (allocated f) (nopart f) (if partrd && Nat.eqb n count then DONE_PART else NO_PART) q, Bytes pkt)
  else if partrd then
    (Rflow (allocated f) (nopart f) (Part (head_release pkt n)) q, Bytes (firstn count pkt))
  else (Rflow (allocated f) (nopart f) (part_idx f) q, EMSGSIZE).

(* dev.c:1341-1447 flow_read; a flow that has nothing is EAGAIN, a blocking
   reader waits instead. *)
Definition flow_read (f : rflow) (count : nat) : rflow * result :=
  if negb (allocated f) then (f, ENOTALLOC)
  else match part_idx f with
       | DONE_PART => (Rflow (allocated f) (nopart f) NO_PART (ready f), Bytes [])
       | Part pkt => read_packet f (ready f) pkt count
       | NO_PART => match ready f with
                    | [] => (f, EAGAIN)
                    | pkt :: q => read_packet f q pkt count
                    end
       end.

(* A packet becomes ready, or a read of count bytes. *)
Inductive rstep : Type := Arrive (pkt : list N) | ReadCall (count : nat).

Definition rstep_run (f : rflow) (s : rstep) : rflow * list result :=
  match s with
  | Arrive pkt => (Rflow (allocated f) (nopart f) (part_idx f) (ready f ++ [pkt]), [])
  | ReadCall c => let (f', r) := flow_read f c in (f', [r])
  end.

Fixpoint rrun (f : rflow) (l : list rstep) : rflow * list result :=
  match l with
  | [] => (f, [])
  | s :: l' => let (f1, o1) := rstep_run f s in
               let (f2, o2) := rrun f1 l' in (f2, o1 ++ o2)
  end.
