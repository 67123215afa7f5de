(** The broadcast IPCP, src/ipcpd/broadcast/dt.c: every packet that a node
    of the layer receives from a neighbour (another node or a local
    application that joined) is written to all its other neighbours.

    First one node with its packet reader, then a whole layer of nodes. *)
From Coq Require Import ZArith List Bool Arith.
Import ListNotations.

Notation fd := nat.
Notation pkt := (list Z).

(* dt.c:31 *)
Definition BROADCAST_MTU : nat := 1400.

(** * One node *)

(* dt.c:150-168 dt_packet: a packet that came in on [in_fd] is written to
   every neighbour but that one; the result of flow_write is not looked
   at.  For any type of neighbours and of packets. *)
Definition dt_packet {X P : Type} (eqb : X -> X -> bool) (nbs : list X) (p : P) (in_fd : X)
  : list (X * P) :=
  map (fun n => (n, p)) (filter (fun n => negb (eqb n in_fd)) nbs).

(* The part_idx of a flow, dev.c:1341-1445: nothing left of the last
   packet, the end of the packet was just read, or the packet was longer
   than the buffer. *)
Inductive part := NoPart | DonePart | SomePart.

Record node := Node {
  nbs : list fd;               (* fwd.nbs, first to last *)
  ring : fd -> list pkt;       (* the receive ring of each flow *)
  prt : fd -> part;            (* flow->part_idx *)
  evq : list fd;               (* FLOW_PKT events that wait for the reader *)
  stuck : option fd            (* the reader waits inside flow_read *)
}.
Definition empty_node : node := Node [] (fun _ => []) (fun _ => NoPart) [] None.

Definition upd {A : Type} (f : fd -> A) (k : fd) (v : A) : fd -> A :=
  fun x => if Nat.eqb x k then v else f x.

Inductive event :=
| Add (f : fd)                 (* NOTIFY_DT_CONN_ADD *)
| Del (f : fd)                 (* NOTIFY_DT_CONN_DEL, and the flow ends *)
| Arrive (f : fd) (p : pkt)    (* a neighbour writes a packet *)
| Turn.                        (* the reader goes on *)

Inductive out :=
| Nothing
| Flood (f : fd) (p : pkt) (writes : list (fd * pkt)).  (* read from f, written *)

(* flow_rx_sdb as used by flow_read on a blocking flow (dev.c:1384-1404,
   1299): an empty packet is thrown away and the next one is waited for. *)
Fixpoint first_valid (l : list pkt) : option (pkt * list pkt) :=
  match l with
  | [] => None
  | [] :: l' => first_valid l'
  | p :: l' => Some (p, l')
  end.

(* dev.c:1341-1445 flow_read with a buffer of BROADCAST_MTU bytes: the
   bytes read, the new ring and part_idx, or None when it blocks.  Of a
   longer packet the rest is cut off when its first part is read (line
   1432 releases n and not count bytes), so the next read finds 0 bytes. *)
Definition flow_read (r : list pkt) (pt : part) : option (pkt * list pkt * part) :=
  match pt with
  | DonePart => Some ([], r, NoPart)
  | SomePart => Some ([], r, NoPart)
  | NoPart =>
      match first_valid r with
      | None => None
      | Some (p, r') =>
          if length p <? BROADCAST_MTU then Some (p, r', NoPart)
          else if length p =? BROADCAST_MTU then Some (p, r', DonePart)
          else Some (firstn BROADCAST_MTU p, r', SomePart)
      end
  end.

(* dt.c:206-211: read from this flow and flood. *)
Definition read_flood (s : node) (f : fd) (q : list fd) : node * out :=
  match flow_read (ring s f) (prt s f) with
  | None => (Node (nbs s) (upd (ring s) f []) (prt s) q (Some f), Nothing)
  | Some (p, r, pt) =>
      (Node (nbs s) (upd (ring s) f r) (upd (prt s) f pt) q None,
       Flood f p (dt_packet Nat.eqb (nbs s) p f))
  end.

Definition mem (f : fd) (l : list fd) : bool := existsb (Nat.eqb f) l.

Definition step (s : node) (e : event) : node * out :=
  match e with
  (* dt.c:73-104 dt_add_nb, 229-233 with fset_add *)
  | Add f => ((if mem f (nbs s) then s
               else Node (nbs s ++ [f]) (ring s) (prt s) (evq s) (stuck s)), Nothing)
  (* dt.c:106-131 dt_del_nb, 234-238 with fset_del, then the flow is
     deallocated (main.c:235-248, connmgr.c): its ring is gone; events that
     were raised before stay (see FsetModel).  A reader that waits inside
     flow_read gets an error. *)
  | Del f => (Node (filter (fun n => negb (n =? f)) (nbs s)) (upd (ring s) f []) (upd (prt s) f NoPart)
                (evq s) (match stuck s with
                         | Some g => if g =? f then None else Some g
                         | None => None
                         end), Nothing)
  | Arrive f p => (Node (nbs s) (upd (ring s) f (ring s f ++ [p])) (prt s) (evq s ++ [f]) (stuck s),
                   Nothing)
  (* dt.c:195-213, one turn of the inner loop of dt_reader, or the rest of
     the one that waits; a read from a flow that is gone fails *)
  | Turn =>
      match stuck s with
      | Some f => read_flood s f (evq s)
      | None =>
          match evq s with
          | [] => (s, Nothing)
          | f :: q =>
              if mem f (nbs s) then read_flood s f q
              else (Node (nbs s) (ring s) (prt s) q None, Nothing)
          end
      end
  end.

(** A history, latest event first. *)
Fixpoint run (h : list event) : node :=
  match h with [] => empty_node | e :: h' => fst (step (run h') e) end.
Definition outcome (e : event) (h : list event) : out := snd (step (run h) e).

(** * A layer *)

(** [links v]: the neighbours of node v.  A packet on its way carries the
    nodes that it has visited, the next one first; the code knows only
    where it goes and where it came from, the first two. *)
Record net := Net { flight : list (list nat); got : list (list nat) }.

(** An application at node [s] writes a packet. *)
Definition inject (links : nat -> list nat) (s : nat) : net :=
  Net (map (fun w => [w; s]) (links s)) [].

(** The packet is received by the first node and written to the others. *)
Definition forward (links : nat -> list nat) (t : list nat) : list (list nat) :=
  match t with
  | v :: u :: _ => map (fun w => fst w :: snd w) (dt_packet Nat.eqb (links v) t u)
  | _ => []
  end.

(** Any packet that is on its way can be the next one to arrive. *)
Inductive move (links : nat -> list nat) : net -> net -> Prop :=
| Move a t b g : move links (Net (a ++ t :: b) g) (Net (a ++ b ++ forward links t) (t :: g)).

Inductive moves (links : nat -> list nat) (s : nat) : nat -> net -> Prop :=
| M0 : moves links s 0 (inject links s)
| MS k x y : moves links s k x -> move links x y -> moves links s (S k) y.
