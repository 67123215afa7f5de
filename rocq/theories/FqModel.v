(* The queue of events that a process collects from a flow set:
   src/lib/dev.c:1598-1728 fqueue_filter, fqueue_next, fqueue_type, fevent.
   The flow set below is FsetModel; here a wait returns the next batch of
   events.  Of a flow: its descriptor; whether it has the flow and
   retransmission layer, and if so whether its next packet is ready
   (__frcti_pdu_ready, frct.c:629) and what waits in its ring. *)
From Coq Require Import ZArith List Bool.
From Verif Require Import FsetModel.
Import ListNotations.
Open Scope Z_scope.

(* include/ouroboros/fqueue.h:32 *)
Definition FLOW_PKT : Z := 1.

(* What a packet in the ring of a flow does when it is taken out
   (flow_rx_sdb, dev.c:1311-1339, then __frcti_rcv): it is thrown away as
   invalid; it carries control information only, or data that is not next;
   or it makes the next packet ready. *)
Inductive arrival : Type := Invalid | NoData | NextData.

Record fstate : Type := Fstate { fd_of : Z; frct : option (bool * list arrival) }.

(* dev.c ai.id_to_fd and ai.flows: by flow id; None if there is no flow. *)
Definition world : Type := Z -> option fstate.

Definition set_frct (w : world) (id : Z) (f : fstate) (x : bool * list arrival) : world :=
  fun i => if i =? id then Some (Fstate (fd_of f) (Some x)) else w i.

(* dev.c:122-126 struct fqueue: fqsize is the length of the events. *)
Record fqueue : Type := Fqueue { fq_events : list fevt; fq_next : nat }.

(* dev.c:1492-1503 fqueue_create *)
Definition fqueue_create : fqueue := Fqueue [] 0.

(* dev.c:1598-1653 fqueue_filter, over the events from fq->next on: the
   flows, how far fq->next moves, and what it returns. *)
Fixpoint filter_from (w : world) (l : list fevt) : world * nat * bool :=
  match l with
  | [] => (w, O, false)
  | (id, ev) :: l' =>
      let next w' := let '(w2, n, r) := filter_from w' l' in (w2, S n, r) in
      if negb (ev =? FLOW_PKT) then (w, O, true)
      else match w id with
           | None => next w
           | Some f =>
               match frct f with
               | None => (w, O, true)
               | Some (true, _) => (w, O, true)
               | Some (false, []) => (w, O, false)
               | Some (false, Invalid :: rx) => (set_frct w id f (false, rx), O, false)
               | Some (false, NextData :: rx) => (set_frct w id f (true, rx), O, true)
               | Some (false, NoData :: rx) => next (set_frct w id f (false, rx))
               end
           end
  end.

Definition fqueue_filter (w : world) (q : fqueue) : world * fqueue * bool :=
  let '(w', n, r) := filter_from w (skipn (fq_next q) (fq_events q)) in
  (w', Fqueue (fq_events q) (fq_next q + n), r).

(* -EPERM; it is also what an unknown flow has as descriptor. *)
Definition EPERM : Z := -1.

(* dev.c:1655-1680 fqueue_next *)
Definition take_next (w : world) (q : fqueue) : fqueue * Z :=
  match nth_error (fq_events q) (fq_next q) with
  | None => (q, EPERM)   (* not reached: fq->next < fq->fqsize *)
  | Some (id, _) => (Fqueue (fq_events q) (S (fq_next q)),
                     match w id with Some f => fd_of f | None => -1 end)
  end.

Definition fqueue_next (w : world) (q : fqueue) : world * fqueue * Z :=
  if Nat.eqb (length (fq_events q)) 0 || Nat.eqb (fq_next q) (length (fq_events q)) then (w, q, EPERM)
  else if Nat.eqb (fq_next q) 0 then let (q', fd) := take_next w q in (w, q', fd)
  else let '(w', q', r) := fqueue_filter w q in
       if r then let (q2, fd) := take_next w' q' in (w', q2, fd) else (w', q', EPERM).

(* dev.c:1682-1691 fqueue_type *)
Definition fqueue_type (q : fqueue) : Z :=
  if Nat.eqb (length (fq_events q)) 0 || Nat.eqb (fq_next q) 0 then EPERM
  else match nth_error (fq_events q) (fq_next q - 1) with Some (_, ev) => ev | None => EPERM end.

(* dev.c:1714-1723, the loop of fevent: the batches are what the successive
   waits return; when there are no more, the wait times out. *)
Fixpoint fevent_loop (w : world) (q : fqueue) (batches : list (list fevt)) :
  world * fqueue * list (list fevt) * bool :=
  match batches with
  | [] => (w, q, [], false)
  | b :: more => let '(w', q', r) := fqueue_filter w (Fqueue b 0) in
                 if r then (w', q', more, true) else fevent_loop w' q' more
  end.

(* dev.c:1693-1728 fevent: true for 1, false for -ETIMEDOUT. *)
Definition fevent (w : world) (q : fqueue) (batches : list (list fevt)) :
  world * fqueue * list (list fevt) * bool :=
  if negb (Nat.eqb (length (fq_events q)) 0) && negb (Nat.eqb (fq_next q) (length (fq_events q)))
  then (w, q, batches, true)
  else fevent_loop w q batches.
