(* What becomes of a packet that is written: flow_write and flow_tx_sdb
   (src/lib/dev.c:1178-1292), ipcp_flow_write and np1_flow_write (1901-1999),
   np1_flow_read (1931-1956) and the tail of flow_read (1409-1438), with the
   ring operations they call (src/lib/shm_rbuff_pthr.c:43-224).  One direction
   of one flow: packets from the pool, in the hands of a program, in the ring,
   or with a writer that waits for room.
   Not modelled here: the content of packets, the windows of FRCT, and the
   second reference that retransmission keeps (see FrctModel). *)
From Coq Require Import List NArith ZArith Bool.
Import ListNotations.
Open Scope N_scope.

(* include/ouroboros/shm_rbuff.h *)
Definition ACL_RDWR : N := 0.
Definition ACL_RDONLY : N := 1.
Definition ACL_FLOWDOWN : N := 2.
Definition ACL_FLOWPEER : N := 4.

Inductive err : Type := EAGAIN | EFLOWDOWN | ENOTALLOC | EFLOWPEER | ETIMEDOUT | EOWNERDEAD | ENOMEM | EPERM.

Inductive res : Type :=
| Wrote            (* flow_write returns count; the others return 0 *)
| Fail (e : err)
| Blocked          (* the call has not returned yet *)
| Took (i : nat)   (* a read returned packet i *)
| Nothing.         (* the event is none of a program's calls *)

(* [live]: packets allocated in the pool and not yet removed.  [q]: the ring.
   [hand]: packets a program holds.  [blk]: packets of blocked writers, with
   whether the writer is np1_flow_write. *)
Record st : Type := St {
  live : list nat;
  q : list nat;
  hand : list nat;
  blk : list (nat * bool);
  acl : N
}.

Section Ring.
  (* SHM_RBUFF_SIZE - 1 *)
  Variable cap : nat.

  Definition full (s : st) : bool := Nat.leb cap (length (q s)).

  Definition has (s : st) (b : N) : bool := negb (N.land (acl s) b =? 0).

  Definition del (i : nat) (l : list nat) : list nat := filter (fun j => negb (Nat.eqb i j)) l.
  Definition delb (i : nat) (l : list (nat * bool)) : list (nat * bool) := filter (fun p => negb (Nat.eqb i (fst p))) l.

  (* shm_rdrbuff_remove *)
  Definition free (i : nat) (s : st) : st := St (del i (live s)) (q s) (hand s) (blk s) (acl s).

  (* shm_rbuff_pthr.c:61-68, 104-111: the check before a write; [None]: go on.
     An access word with neither bit set leaves ret at 0. *)
  Definition ring_check (s : st) : option (option err) :=
    if acl s =? ACL_RDWR then None
    else if has s ACL_FLOWDOWN then Some (Some EFLOWDOWN)
    else if has s ACL_RDONLY then Some (Some ENOTALLOC)
    else Some None.

  (* The head of the ring moves on; when the ring is full it meets the tail
     and the ring counts as empty. *)
  Definition put (i : nat) (s : st) : st :=
    St (live s) (if full s then [] else q s ++ [i]) (hand s) (blk s) (acl s).

  (* dev.c:1203-1213, and 1990-1994: an error of the ring frees the packet.
     flow_tx_sdb returns 0 all the same (1216), np1_flow_write the error. *)
  Definition ring_failed (np1 : bool) (i : nat) (e : err) (s : st) : st * res :=
    (free i s, if np1 then Fail e else Wrote).

  (* shm_rbuff_write and shm_rbuff_write_b up to the wait. *)
  Definition ring_write (np1 block : bool) (i : nat) (s : st) : st * res :=
    match ring_check s with
    | Some (Some e) => ring_failed np1 i e s
    | Some None => (s, Wrote)
    | None =>
        if full s
        then if block then (St (live s) (q s) (hand s) ((i, np1) :: blk s) (acl s), Blocked)
             else ring_failed np1 i EAGAIN s
        else (put i s, Wrote)
    end.

  (* How a wait ends: __timedwait returns 0, ETIMEDOUT or EOWNERDEAD. *)
  Inductive wake : Type := Woken | TimedOut | OwnerDead.

  (* shm_rbuff_pthr.c:114-132: the loop around the wait, and after it. *)
  Definition ring_wake (i : nat) (np1 : bool) (w : wake) (s : st) : st * res :=
    let s1 := St (live s) (q s) (hand s) (delb i (blk s)) (acl s) in
    match w with
    | TimedOut => ring_failed np1 i ETIMEDOUT s1
    | _ =>
        if full s && negb (has s ACL_FLOWDOWN) then (s, Blocked)
        else match w with
             | OwnerDead => let (s2, r) := ring_failed np1 i EOWNERDEAD (put i s1) in (s2, r)
             | _ => (put i s1, Wrote)
             end
    end.

  Inductive event : Type :=
  | Write (block bad : bool) (i : nat)  (* flow_write, i from the pool; bad: frcti_snd, crypt or CRC fails *)
  | ReadOnly                            (* flow_write on a flow that is read-only *)
  | Np1Write (i : nat)                  (* np1_flow_write of a packet in hand *)
  | Wake (i : nat) (w : wake)
  | Obtain (i : nat)                    (* a packet from the pool, ipcp_sdb_reserve *)
  | Release (i : nat)                   (* ipcp_sdb_release *)
  | Read                                (* flow_read: copies and releases *)
  | Np1Read                             (* np1_flow_read: into the hand *)
  | SetAcl (a : N).

  (* shm_rbuff_pthr.c:139-150 check_rb_acl *)
  Definition read_err (s : st) : err :=
    if has s ACL_FLOWDOWN then EFLOWDOWN else if has s ACL_FLOWPEER then EFLOWPEER else EAGAIN.

  Definition step (s : st) (e : event) : st * res :=
    match e with
    | Write block bad i =>
        let s1 := St (i :: live s) (q s) (hand s) (blk s) (acl s) in
        (* dev.c:1192-1202, 1218-1221 *)
        if bad then (free i s1, Fail ENOMEM) else ring_write false block i s1
    | ReadOnly => (s, Fail EPERM)
    | Np1Write i =>
        ring_write true true i (St (live s) (q s) (del i (hand s)) (blk s) (acl s))
    | Wake i w =>
        match find (fun p => Nat.eqb i (fst p)) (blk s) with
        | Some (_, np1) => ring_wake i np1 w s
        | None => (s, Nothing)
        end
    | Obtain i => (St (i :: live s) (q s) (i :: hand s) (blk s) (acl s), Nothing)
    | Release i => (free i (St (live s) (q s) (del i (hand s)) (blk s) (acl s)), Nothing)
    | Read =>
        match q s with
        | [] => (s, Fail (read_err s))
        | i :: r => (free i (St (live s) r (hand s) (blk s) (acl s)), Took i)
        end
    | Np1Read =>
        match q s with
        | [] => (s, Fail (read_err s))
        | i :: r => (St (live s) r (i :: hand s) (blk s) (acl s), Took i)
        end
    | SetAcl a => (St (live s) (q s) (hand s) (blk s) a, Nothing)
    end.
End Ring.

Definition init : st := St [] [] [] [] ACL_RDWR.
