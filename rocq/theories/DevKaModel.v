(* Keeping a flow alive: _flow_keepalive and flow_send_keepalive
   (src/lib/dev.c:272-331), and what writing and reading do to the two
   activity times of a flow (flow_init 480-481, flow_tx_sdb 1186-1194,
   flow_rx_sdb 1324-1337, flow_read 1341-1447, fqueue_filter 1593-1650).
   Times are in nanoseconds.  One event is one section of the code that reads
   the clock; the lock that _flow_keepalive drops before it sends is not
   modelled.  A packet is the number of packets it makes ready for the reader:
   0 for keepalives, FRCT control packets, duplicates and damaged packets, 1
   for plain data, and possibly more when FRCT had packets waiting for it. *)
From Coq Require Import List ZArith Bool.
Import ListNotations.
Open Scope Z_scope.

(* time_utils.h *)
Definition MILLION : Z := 1000000.

(* dev.c:90-113 struct flow: info.qs.timeout (ms), snd_act, rcv_act, whether
   rx_rb carries ACL_FLOWPEER or ACL_FLOWDOWN, the packets in rx_rb, the
   packets that FRCT holds for the reader (or the rest of a packet read in
   part), and the read call in progress with
   the time at which it was made (flow_read reads the clock once, on entry).
   With each packet in rx_rb the model keeps the time it was sent and the time
   it arrived; nothing reads these. *)
Record ka : Type := Ka {
  timeo : Z;
  snd_act : Z;
  rcv_act : Z;
  peer_down : bool;
  rxq : list (nat * (Z * Z));
  frq : nat;
  rd : option Z
}.

Definition ka_init (timeout t : Z) : ka := Ka timeout t t false [] 0 None.

Inductive event : Type :=
| Tick                          (* _flow_keepalive *)
| Write (ok : bool)             (* flow_write; whether the ring had room *)
| Arrive (data : nat) (s : Z)   (* a packet sent at time s is put in rx_rb *)
| ReadCall                      (* flow_read is called *)
| ReadStep (more : bool)        (* and looks for a packet; whether only a part
                                   of it fits *)
| ReadStop                      (* and returns without one *)
| Filter.                       (* fqueue_filter takes a packet for FRCT *)

(* What can be seen from outside: a packet is handed to the layer below, the
   flow is declared down. *)
Inductive out : Type := Sent | Dead | Quiet.

(* dev.c:297-331 _flow_keepalive, with 272-294. *)
Definition keepalive (k : ka) (now : Z) : ka * out :=
  if (timeo k =? 0) || peer_down k then (k, Quiet)
  else if timeo k * MILLION <? now - rcv_act k
  then (Ka (timeo k) (snd_act k) (rcv_act k) true (rxq k) (frq k) (rd k), Dead)
  else if timeo k * (MILLION / 4) <? now - snd_act k
  then (Ka (timeo k) now (rcv_act k) (peer_down k) (rxq k) (frq k) (rd k), Sent)
  else (k, Quiet).

(* dev.c:1178-1230 flow_tx_sdb. *)
Definition flow_tx (k : ka) (now : Z) (ok : bool) : ka * out :=
  (Ka (timeo k) now (rcv_act k) (peer_down k) (rxq k) (frq k) (rd k),
   if ok then Sent else Quiet).

(* dev.c:1393-1425 flow_read: a packet FRCT holds, else one from the ring;
   1426-1433: the time of the call becomes the time of activity. *)
Definition read_step (k : ka) (now : Z) (more : bool) : ka :=
  match rd k with
  | None => k
  | Some called =>
      match frq k with
      | S n => Ka (timeo k) (snd_act k) called (peer_down k) (rxq k) (if more then S n else n) None
      | O =>
          match rxq k with
          | [] => k
          | (O, _) :: q => Ka (timeo k) (snd_act k) now (peer_down k) q 0 (rd k)
          | (S n, _) :: q => Ka (timeo k) (snd_act k) called (peer_down k) q (if more then S n else n) None
          end
      end
  end.

(* dev.c:1593-1650 fqueue_filter, with 1324-1337. *)
Definition filter_step (k : ka) (now : Z) : ka :=
  match rxq k with
  | [] => k
  | (d, _) :: q => Ka (timeo k) (snd_act k) now (peer_down k) q (d + frq k)%nat (rd k)
  end.

Definition step (k : ka) (now : Z) (e : event) : ka * out :=
  match e with
  | Tick => keepalive k now
  | Write ok => flow_tx k now ok
  | Arrive d s => (Ka (timeo k) (snd_act k) (rcv_act k) (peer_down k) (rxq k ++ [(d, (s, now))]) (frq k) (rd k), Quiet)
  | ReadCall => (Ka (timeo k) (snd_act k) (rcv_act k) (peer_down k) (rxq k) (frq k)
                    (match rd k with None => Some now | r => r end), Quiet)
  | ReadStep more => (read_step k now more, Quiet)
  | ReadStop => (Ka (timeo k) (snd_act k) (rcv_act k) (peer_down k) (rxq k) (frq k) None, Quiet)
  | Filter => (filter_step k now, Quiet)
  end.

(* A history of timed events. *)
Fixpoint run (k : ka) (l : list (Z * event)) : ka * list out :=
  match l with
  | [] => (k, [])
  | (t, e) :: l' => let (k1, o) := step k t e in
                    let (k2, os) := run k1 l' in (k2, o :: os)
  end.

(* Both ends of a flow and the packets between them, with the times they were
   sent.  The network keeps the order and loses nothing. *)
Record link : Type := Link {
  endA : ka;
  endB : ka;
  ab : list (nat * Z);
  ba : list (nat * Z);
  tickA : Z;      (* the last tick at each end; nothing reads these *)
  tickB : Z
}.

Inductive side : Type := SideA | SideB.

(* Something happens at one end; Deliver hands it the first packet that is on
   its way to it. *)
(* [d] is what the packet sent by this event, if any, makes ready for the
   reader at the other end. *)
Inductive levent : Type := At (s : side) (e : event) (d : nat) | Deliver (s : side).

Definition push (q : list (nat * Z)) (d : nat) (o : out) (now : Z) : list (nat * Z) :=
  match o with Sent => q ++ [(d, now)] | _ => q end.

Definition lstep (l : link) (now : Z) (e : levent) : link * out :=
  match e with
  | At SideA e d =>
      let (k, o) := step (endA l) now e in
      (Link k (endB l) (push (ab l) d o now) (ba l)
            (match e with Tick => now | _ => tickA l end) (tickB l), o)
  | At SideB e d =>
      let (k, o) := step (endB l) now e in
      (Link (endA l) k (ab l) (push (ba l) d o now) (tickA l)
            (match e with Tick => now | _ => tickB l end), o)
  | Deliver SideB =>
      match ab l with
      | [] => (l, Quiet)
      | (d, s) :: q => (Link (endA l) (fst (step (endB l) now (Arrive d s))) q (ba l) (tickA l) (tickB l), Quiet)
      end
  | Deliver SideA =>
      match ba l with
      | [] => (l, Quiet)
      | (d, s) :: q => (Link (fst (step (endA l) now (Arrive d s))) (endB l) (ab l) q (tickA l) (tickB l), Quiet)
      end
  end.
