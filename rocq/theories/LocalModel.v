(* The local IPCP, src/ipcpd/local/main.c: the table in_out that connects the
   two ends of a flow (189-218, 220-271, 273-292) and the thread that moves
   packets (106-140), with local_flow_read and local_flow_write
   (src/lib/dev.c:2069-2110) and ipcp_flow_fini (2007-2034).

   Descriptors and ends of flows are natural numbers.  An end is one flow id in
   one life: its rings are its own, so rings are indexed by the end, while the
   table is indexed by the descriptor.  One step is one section under a lock or
   one call.  The set of flows and its event queue are not in the model
   (FsetModel, FqModel): the thread may be told of any open descriptor.  Full
   rings are not in the model: a write into a ring waits for room (RbuffModel),
   and is one step here.  A refusal calls the response function with -1; see
   IpcpAllocModel. *)
From Coq Require Import List Bool Arith.
Import ListNotations.

(* A packet: the end it was written at (not in the code, nothing reads it)
   and its content. *)
Definition pkt : Type := (nat * nat)%type.

(* Where the thread is: at the queue, holding a descriptor from the queue (122),
   holding a packet read from a descriptor (128), about to write it (135). *)
Inductive lpc : Type := Idle | Got (fd : nat) | Held (fd : nat) (x : pkt) | Out (fd : nat) (x : pkt).

Definition upd {A} (f : nat -> A) (k : nat) (v : A) : nat -> A :=
  fun x => if Nat.eqb x k then v else f x.

Record local : Type := Local {
  flows : nat -> option nat;   (* dev.c: the open descriptors and their ends *)
  ino : nat -> option nat;     (* main.c:58 in_out, None for -1 *)
  down : nat -> bool;          (* ends with ACL_FLOWDOWN on both rings *)
  cleared : nat -> bool;       (* ends whose deallocation is past main.c:285 *)
  rx : nat -> list pkt;        (* packets from the application, per end *)
  loop : lpc;
  got : nat -> list pkt;       (* packets put in the ring to the application, oldest first *)
  lost : list pkt;             (* packets that nobody holds and nobody freed *)
  crashed : bool               (* a NULL ring was used *)
}.

(* main.c:66-70. *)
Definition local_init : local :=
  Local (fun _ => None) (fun _ => None) (fun _ => false) (fun _ => false) (fun _ => []) Idle (fun _ => []) [] false.

Inductive event : Type :=
| Open (fd a : nat)          (* ipcp.c:522: the flow of an allocation request *)
| Req (fd a o b : nat)       (* main.c:200: the daemon gave o, for end b, as the other end *)
| Table (fd a o b : nat)     (* main.c:206-211 *)
| Fini (fd a : nat)          (* main.c:277: ipcp_flow_fini marks the rings *)
| Untable (fd a : nat)       (* dev.c:2030-2031 waits for the ring, main.c:279-285 *)
| Close (fd a : nat)         (* main.c:287: ipcp_flow_dealloc frees the descriptor *)
| Write (a p : nat)          (* the application at a writes *)
| Next (fd : nat)            (* main.c:118: a packet event for fd *)
| Read                       (* main.c:122 *)
| Look                       (* main.c:128-132 *)
| Deliver.                   (* main.c:134-135 *)

Definition step (s : local) (e : event) : local :=
  match e with
  | Open fd a =>
      Local (upd (flows s) fd (Some a)) (ino s) (down s) (cleared s) (rx s) (loop s) (got s) (lost s) (crashed s)
  | Req fd a o b =>
      Local (upd (flows s) o (Some b)) (ino s) (down s) (cleared s) (rx s) (loop s) (got s) (lost s) (crashed s)
  | Table fd a o b =>
      Local (flows s) (upd (upd (ino s) fd (Some o)) o (Some fd)) (down s) (cleared s) (rx s) (loop s) (got s) (lost s) (crashed s)
  | Fini fd a =>
      Local (flows s) (ino s) (upd (down s) a true) (cleared s) (rx s) (loop s) (got s) (lost s) (crashed s)
  | Untable fd a =>
      match rx s a with
      | [] => Local (flows s) (upd (ino s) fd None) (down s) (upd (cleared s) a true) (rx s) (loop s) (got s) (lost s) (crashed s)
      | _ => s
      end
  | Close fd a =>
      if negb (cleared s a) then s else Local (upd (flows s) fd None) (ino s) (down s) (cleared s) (rx s) (loop s) (got s) (lost s) (crashed s)
  | Write a p =>
      if down s a then s
      else Local (flows s) (ino s) (down s) (cleared s) (upd (rx s) a (rx s a ++ [(a, p)])) (loop s) (got s) (lost s) (crashed s)
  | Next fd =>
      match loop s with
      | Idle => Local (flows s) (ino s) (down s) (cleared s) (rx s) (Got fd) (got s) (lost s) (crashed s)
      | _ => s
      end
  | Read =>
      match loop s with
      | Got fd =>
          match flows s fd with
          | None => Local (flows s) (ino s) (down s) (cleared s) (rx s) Idle (got s) (lost s) true
          | Some a =>
              match rx s a with
              | [] => Local (flows s) (ino s) (down s) (cleared s) (rx s) Idle (got s) (lost s) (crashed s)
              | x :: q => Local (flows s) (ino s) (down s) (cleared s) (upd (rx s) a q) (Held fd x) (got s) (lost s) (crashed s)
              end
          end
      | _ => s
      end
  | Look =>
      match loop s with
      | Held fd x =>
          match ino s fd with
          | Some o => Local (flows s) (ino s) (down s) (cleared s) (rx s) (Out o x) (got s) (lost s) (crashed s)
          | None => Local (flows s) (ino s) (down s) (cleared s) (rx s) Idle (got s) (x :: lost s) (crashed s)
          end
      | _ => s
      end
  | Deliver =>
      match loop s with
      | Out o x =>
          match flows s o with
          | None => Local (flows s) (ino s) (down s) (cleared s) (rx s) Idle (got s) (x :: lost s) (crashed s)
          | Some b =>
              if down s b (* dev.c: the write fails and the packet is removed *)
              then Local (flows s) (ino s) (down s) (cleared s) (rx s) Idle (got s) (lost s) (crashed s)
              else Local (flows s) (ino s) (down s) (cleared s) (rx s) Idle (upd (got s) b (got s b ++ [x])) (lost s) (crashed s)
          end
      | _ => s
      end
  end.

(* A history, latest event first. *)
Fixpoint run (h : list event) : local :=
  match h with
  | [] => local_init
  | e :: h' => step (run h') e
  end.

(* local_ipcp_flow_alloc_resp (main.c:242-258) for descriptor o: what it finds
   in the table at its two looks. *)
Definition resp_look (s1 s2 : local) (o : nat) : option nat :=
  match ino s1 o with Some f => Some f | None => ino s2 o end.
