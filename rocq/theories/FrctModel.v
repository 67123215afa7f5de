(* Model of the flow and retransmission control task of a flow (FRCT),
   src/lib/frct.c, with the per-packet part of the retransmission timer,
   src/lib/timerwheel.c.

   Times are in nanoseconds; a struct timespec is the number of nanoseconds
   it stands for, and its tv_sec is that number divided by 10^9.  Sequence
   numbers are uint32_t, written as numbers modulo 2^32.

   Simplifications: memory is always available; every function is one
   atomic step (they run under frcti->lock) that reads the clock once; the
   packets in the reassembly queue are represented by their contents
   instead of their index in the shared buffer; encryption and the CRC are
   left out (see CrcModel); the statistics (PROC_FLOW_STATS) are left out.
   The header is a record here; FrctWire models its bytes. *)

From Coq Require Import NArith ZArith List Bool.
From Verif Require Import SeqNoModel.
Import ListNotations.
Open Scope Z_scope.

Definition MILLION : Z := 1000000.
Definition BILLION : Z := 1000000000.

(* src/lib/CMakeLists.txt, config.h.in: the default configuration. *)
Definition RQ_SIZE : Z := 256.
Definition START_WINDOW : Z := 64.
Definition RTO_MIN : Z := 250 * 1000.
Definition MDEV_MUL : Z := 2.
Definition TICTIME : Z := 5000 * 1000.

(* frct.c:25-26 *)
Definition DELT_RDV : Z := 100 * MILLION.
Definition MAX_RDV : Z := 1 * BILLION.

(* timerwheel.c, config.h.in: slots of the wheel. *)
Definition RXMQ_RES : Z := 20.
Definition RXMQ_BUMP : Z := 4.
Definition RXMQ_LVLS : Z := 3.
Definition RXMQ_SLOTS : Z := 256.

(* A result, or undefined behaviour (here: a failed assertion). *)
Inductive res (A : Type) : Type := Ok (x : A) | UB.
Arguments Ok {A} x.
Arguments UB {A}.

(* The contents of a packet. *)
Notation data := (list N).

(* uint32_t arithmetic. *)
Definition w32 (x : Z) : Z := x mod two32.

(* tv_sec of a time. *)
Definition sec (t : Z) : Z := t / BILLION.

(* frct.c:32-41 struct frct_cr.  cflags (fccntl.h:49-51) as booleans. *)
Record cr : Type := Cr {
  lwe : Z; rwe : Z;
  f_rtx : bool; f_rescntl : bool; f_linger : bool;
  seqno : Z;
  act : Z;        (* ns *)
  inact : Z       (* s *)
}.

(* frct.c:43-78 struct frcti.  The receive queue has RQ_SIZE entries; an
   empty one (-1) is None. *)
Record frcti : Type := Frcti {
  mpl : Z; a : Z; r : Z;      (* ns *)
  srtt : Z; mdev : Z; rto : Z; rttseq : Z; t_probe : Z; probe : bool;
  snd_cr : cr; rcv_cr : cr;
  rq : list (option data);
  open : bool; t_wnd : Z; t_rdvs : Z
}.

(* frct.c:80-100 enum frct_flags and struct frct_pci, in host order: the
   flags, the 24-bit window, the sequence number and the acknowledgement. *)
Record pci : Type := Pci {
  p_data : bool; p_drf : bool; p_ack : bool; p_fc : bool; p_rdvs : bool;
  p_window : Z; p_seqno : Z; p_ackno : Z
}.

Definition with_snd (f : frcti) (c : cr) : frcti :=
  Frcti (mpl f) (a f) (r f) (srtt f) (mdev f) (rto f) (rttseq f) (t_probe f) (probe f)
    c (rcv_cr f) (rq f) (open f) (t_wnd f) (t_rdvs f).
Definition with_rcv (f : frcti) (c : cr) : frcti :=
  Frcti (mpl f) (a f) (r f) (srtt f) (mdev f) (rto f) (rttseq f) (t_probe f) (probe f)
    (snd_cr f) c (rq f) (open f) (t_wnd f) (t_rdvs f).
Definition with_rq (f : frcti) (q : list (option data)) : frcti :=
  Frcti (mpl f) (a f) (r f) (srtt f) (mdev f) (rto f) (rttseq f) (t_probe f) (probe f)
    (snd_cr f) (rcv_cr f) q (open f) (t_wnd f) (t_rdvs f).
Definition with_probe (f : frcti) (s t : Z) (b : bool) : frcti :=
  Frcti (mpl f) (a f) (r f) (srtt f) (mdev f) (rto f) s t b
    (snd_cr f) (rcv_cr f) (rq f) (open f) (t_wnd f) (t_rdvs f).
Definition with_rtt (f : frcti) (s m o : Z) : frcti :=
  Frcti (mpl f) (a f) (r f) s m o (rttseq f) (t_probe f) (probe f)
    (snd_cr f) (rcv_cr f) (rq f) (open f) (t_wnd f) (t_rdvs f).
Definition with_wnd (f : frcti) (o : bool) (t1 t2 : Z) : frcti :=
  Frcti (mpl f) (a f) (r f) (srtt f) (mdev f) (rto f) (rttseq f) (t_probe f) (probe f)
    (snd_cr f) (rcv_cr f) (rq f) o t1 t2.

Definition cr_wnd (c : cr) (l w s : Z) : cr :=
  Cr l w (f_rtx c) (f_rescntl c) (f_linger c) s (act c) (inact c).
Definition cr_act (c : cr) (t : Z) : cr :=
  Cr (lwe c) (rwe c) (f_rtx c) (f_rescntl c) (f_linger c) (seqno c) t (inact c).

(* frct.c:330-434 frcti_create: the times in seconds, whether the flow is to
   be free of loss (qs.loss == 0), and the clock. *)
Definition frcti_create (a_s r_s mpl_s : Z) (reliable : bool) (now : Z) : frcti :=
  let mpl := mpl_s * BILLION in
  let a := a_s * BILLION in
  let r := r_s * BILLION in
  let sin := (3 * mpl + a + r) / BILLION + 1 in
  let rin := (2 * mpl + a + r) / BILLION + 1 in
  Frcti mpl a r 0 (10 * MILLION) BILLION 0 0 false
    (Cr 0 START_WINDOW reliable true reliable 0 ((sec now - (sin + 1)) * BILLION) sin)
    (Cr 0 0 reliable false false 0 ((sec now - (rin + 1)) * BILLION) rin)
    (repeat None (Z.to_nat RQ_SIZE)) false 0 0.

(* frct.c:448-461 frcti_getflags, frct.c:463-477 frcti_setflags: the flags
   FRCTFRTX, FRCTFRESCNTL, FRCTFLINGER. *)
Definition frcti_getflags (f : frcti) : bool * bool * bool :=
  (f_rtx (snd_cr f), f_rescntl (snd_cr f), f_linger (snd_cr f)).

Definition frcti_setflags (f : frcti) (rtx rescntl linger : bool) : frcti :=
  let c := snd_cr f in
  (* flags |= FRCTFRTX *)
  let rtx := true in
  (* cflags &= FRCTFRTX: the others are zero *)
  let c1 := (f_rtx c, false, false) in
  (* cflags &= flags *)
  let '(x, y, z) := c1 in
  with_snd f (Cr (lwe c) (rwe c) (x && rtx) (y && rescntl) (z && linger)
                (seqno c) (act c) (inact c)).

(* frct.c:235-281 __send_frct_pkt: the header of a control packet. *)
Definition ctrl (ack fc rdvs : bool) (ackno rwe : Z) : pci :=
  Pci false false ack fc rdvs (rwe mod 2 ^ 24) 0 ackno.

(* frct.c:283-323 send_frct_pkt: the packet sent, if any. *)
Definition send_frct_pkt (f : frcti) (now : Z) : frcti * list pci :=
  let c := rcv_cr f in
  if negb (after (lwe c) (seqno c)) then (f, [])
  else if now - act c >? a f then (f, [])
  else if now - act (snd_cr f) <? TICTIME then (f, [])
  else (with_rcv f (cr_wnd c (lwe c) (rwe c) (lwe c)),
        [ctrl true true false (lwe c) (rwe c)]).

(* frct.c:498-544 __frcti_is_window_open: the answer and the rendez-vous
   packet sent, if any. *)
Definition frcti_is_window_open (f : frcti) (now : Z) : frcti * bool * list pci :=
  let c := snd_cr f in
  if negb (f_rescntl c) || before (seqno c) (rwe c) then (f, true, [])
  else if open f then (with_wnd f false now now, false, [])
  else if now - t_wnd f >? MAX_RDV then (f, false, [])
  else if now - t_rdvs f >? DELT_RDV
  then (with_wnd f (open f) (t_wnd f) now, false, [ctrl false false true 0 0])
  else (f, false, []).

(* frct.c:554-560: whether __frcti_window_wait has to wait. *)
Definition window_closed (f : frcti) : bool :=
  f_rescntl (snd_cr f) && (seqno (snd_cr f) =? rwe (snd_cr f)).

(* frct.c:562-571: before the wait. *)
Definition window_before_wait (f : frcti) (now : Z) : frcti :=
  if open f then with_wnd f false now now else f.

(* frct.c:579-594: the wait timed out.  The boolean is true for
   -ECONNRESET, false for -ETIMEDOUT. *)
Definition window_timeout (f : frcti) (now : Z) : frcti * bool * list pci :=
  if now - t_wnd f >? MAX_RDV then (f, true, [])
  else if now - t_rdvs f >? DELT_RDV
  then (with_wnd f (open f) (t_wnd f) now, false, [ctrl false false true 0 0])
  else (f, false, []).

(* An entry of the receive queue. *)
Definition slot (s : Z) : nat := Z.to_nat (s mod RQ_SIZE).
Definition rq_get (q : list (option data)) (n : nat) : option data := nth n q None.
Fixpoint rq_set (q : list (option data)) (n : nat) (x : option data) : list (option data) :=
  match q, n with
  | [], _ => []
  | _ :: q', O => x :: q'
  | y :: q', S n' => y :: rq_set q' n' x
  end.

(* frct.c:605-627 __frcti_queued_pdu *)
Definition frcti_queued_pdu (f : frcti) : frcti * option data :=
  let c := rcv_cr f in
  let pos := slot (lwe c) in
  match rq_get (rq f) pos with
  | Some d => (with_rq (with_rcv f (cr_wnd c (w32 (lwe c + 1)) (w32 (rwe c + 1)) (seqno c)))
                 (rq_set (rq f) pos None), Some d)
  | None => (f, None)
  end.

(* frct.c:629-645 __frcti_pdu_ready *)
Definition frcti_pdu_ready (f : frcti) : option data :=
  rq_get (rq f) (slot (lwe (rcv_cr f))).

(* frct.c:654-683 __frcti_dealloc: the time to wait, negative if there are
   packets that are not acknowledged, and the final acknowledgement. *)
Definition frcti_dealloc (f : frcti) (now : Z) : Z * list pci :=
  let rc := rcv_cr f in
  let sc := snd_cr f in
  let wait := Z.max (inact rc - sec now + sec (act rc)) (inact sc - sec now + sec (act sc)) in
  let wait := Z.max wait 0 in
  (if f_linger sc && before (lwe sc) (seqno sc) then - wait else wait,
   if lwe rc =? seqno rc then [] else [ctrl true false false (lwe rc) 0]).

(* frct.c:720: the sender has been inactive for too long. *)
Definition snd_inactive (f : frcti) (now : Z) : bool :=
  sec now - sec (act (snd_cr f)) >? inact (snd_cr f).

(* frct.c:824: the receiver has been inactive for too long. *)
Definition rcv_inactive (f : frcti) (now : Z) : bool :=
  sec now - sec (act (rcv_cr f)) >? inact (rcv_cr f).

(* frct.c:685-765 __frcti_snd: the new state and the header of the packet.
   rnd is the random number.  timerwheel_move (701) and timerwheel_rxm (762)
   are steps of their own. *)
Definition frcti_snd (f : frcti) (now rnd : Z) : res (frcti * pci) :=
  let sc := snd_cr f in
  let rc := rcv_cr f in
  let rtx := f_rtx sc in
  let drf := seqno sc =? lwe sc in
  if snd_inactive f now && negb (seqno sc =? lwe sc) then UB  (* assert, 722 *)
  else
    let sc1 := if snd_inactive f now
               then cr_wnd sc (w32 rnd) (w32 (w32 rnd + START_WINDOW)) (w32 rnd)
               else sc in
    let sq := seqno sc1 in
    let fc := sec now - sec (act rc) <? inact rc in
    let f1 := if rtx && negb (probe f) then with_probe f sq now true else f in
    let acks := rtx && ((sec now - sec (act rc)) * BILLION <=? a f) in
    let rc1 := if acks then cr_wnd rc (lwe rc) (rwe rc) (lwe rc) else rc in
    let l := if rtx then lwe sc1 else w32 (lwe sc1 + 1) in
    let sc2 := cr_act (cr_wnd sc1 l (rwe sc1) (w32 (sq + 1))) now in
    Ok (with_rcv (with_snd f1 sc2) rc1,
        Pci true drf acks fc false (if fc then rwe rc mod 2 ^ 24 else 0) sq
            (if acks then lwe rc else 0)).

(* frct.c:767-793 rtt_estimator *)
Definition rtt_estimator (f : frcti) (mrtt : Z) : frcti :=
  let '(s, v) :=
    if srtt f =? 0 then (mrtt, Z.shiftr mrtt 1)
    else
      let delta := mrtt - srtt f in
      let s := srtt f + Z.shiftr delta 3 in
      let delta := Z.shiftr (Z.abs delta - mdev f) 2 in
      let delta := if delta <? 0 then Z.shiftr delta 3 else delta in
      (s, mdev f + delta) in
  let s := Z.max 1000 s in
  let m := Z.max 100 v in
  with_rtt f s m (Z.max RTO_MIN (s + Z.shiftl m MDEV_MUL)).

(* frct.c:848-860: the acknowledgement. *)
Definition rcv_ack (f : frcti) (now : Z) (p : pci) : frcti :=
  if p_ack p then
    let sc := snd_cr f in
    let f1 := if after (p_ackno p) (lwe sc)
              then with_snd f (cr_wnd sc (p_ackno p) (rwe sc) (seqno sc)) else f in
    if probe f && after (p_ackno p) (rttseq f)
    then let f2 := rtt_estimator f1 (now - t_probe f) in
         with_probe f2 (rttseq f2) (t_probe f2) false
    else f1
  else f.

(* frct.c:863-873: the window edge from its 24 lower bits. *)
Definition decode_rwe (cur w : Z) : Z :=
  let rwe := w + cur / 2 ^ 24 * 2 ^ 24 in
  if before rwe cur && (w32 (cur - rwe) >? 8388607)
  then w32 (rwe + 2 ^ 24) else rwe.

(* frct.c:862-880: the window. *)
Definition rcv_fc (f : frcti) (p : pci) : frcti :=
  if p_fc p then
    let sc := snd_cr f in
    let f1 := with_snd f (cr_wnd sc (lwe sc) (decode_rwe (rwe sc) (p_window p)) (seqno sc)) in
    if open f1 then f1 else with_wnd f1 true (t_wnd f1) (t_rdvs f1)
  else f.

(* What happened to a packet: it was put in the receive queue (and an
   acknowledgement is to be sent later), dropped, or was a rendez-vous. *)
Inductive fate : Type := Queued | Dropped | Answered.

(* frct.c:927-932 drop_packet: after the packet was dropped. *)
Definition drop (f : frcti) (now : Z) : frcti * fate * list pci :=
  let (f', out) := send_frct_pkt f now in (f', Dropped, out).

(* frct.c:882-925: the data. *)
Definition rcv_data (f : frcti) (now : Z) (p : pci) (d : data) : frcti * fate * list pci :=
  let rc := rcv_cr f in
  let sq := p_seqno p in
  let pos := slot sq in
  if negb (p_data p) then drop f now
  else if before sq (lwe rc)
  then drop (with_rcv f (cr_wnd rc (lwe rc) (rwe rc) sq)) now
  else if f_rtx rc then
    if negb (before sq (rwe rc)) then drop f now
    else if negb (before sq (w32 (lwe rc + RQ_SIZE))) then drop f now
    else match rq_get (rq f) pos with
         | Some _ => drop f now
         | None => (with_rq f (rq_set (rq f) pos (Some d)), Queued, [])
         end
  else (with_rq (with_rcv f (cr_wnd rc sq (rwe rc) (seqno rc)))
          (rq_set (rq f) pos (Some d)), Queued, []).

(* frct.c:836-880: from the moment the packet counts as activity. *)
Definition rcv_active (f : frcti) (now : Z) (p : pci) (d : data) : frcti * fate * list pci :=
  let f1 := with_rcv f (cr_act (rcv_cr f) now) in
  if p_rdvs p then (f1, Answered, [ctrl false true false 0 (rwe (rcv_cr f1))])
  else rcv_data (rcv_fc (rcv_ack f1 now p) p) now p d.

(* frct.c:795-934 __frcti_rcv: the packets are those sent in reply. *)
Definition frcti_rcv (f : frcti) (now : Z) (p : pci) (d : data) : frcti * fate * list pci :=
  if rcv_inactive f now then
    if p_drf p then
      rcv_active (with_rcv f (cr_wnd (rcv_cr f) (p_seqno p) (w32 (p_seqno p + RQ_SIZE)) (p_seqno p)))
        now p d
    else if p_data p then drop f now
    else rcv_active f now p d
  else rcv_active f now p d.

(* timerwheel.c:31-42 struct rxm: a packet that is kept for retransmission.
   x_no, the number of packets written to the flow before it, is not in the
   code; it is only used to state properties. *)
Record rxm : Type := Rxm { x_seqno : Z; x_hdr : pci; x_body : data; x_t0 : Z; x_no : Z }.

Definition set_ackno (p : pci) (n : Z) : pci :=
  Pci (p_data p) (p_drf p) (p_ack p) (p_fc p) (p_rdvs p) (p_window p) (p_seqno p) n.

(* timerwheel.c:206-213, 344-348: the level of the wheel for a time-out. *)
Definition rxm_level (rto : Z) : Z :=
  let s := Z.shiftr rto RXMQ_RES in
  if s <? RXMQ_SLOTS then 0
  else if Z.shiftr s RXMQ_BUMP <? RXMQ_SLOTS then 1
  else if Z.shiftr (Z.shiftr s RXMQ_BUMP) RXMQ_BUMP <? RXMQ_SLOTS then 2
  else 3.

(* timerwheel.c:348-355: whether timerwheel_rxm puts the packet on the
   wheel; its failure is ignored (frct.c:762). *)
Definition rxm_fits (f : frcti) : bool := rxm_level (rto f) <? RXMQ_LVLS.

Inductive fired : Type :=
| Acked                       (* cleanup: has been acknowledged *)
| Down                        (* flow_down: the flow is given up *)
| Later (f : frcti)           (* reschedule: there is no buffer *)
| Sent (f : frcti) (p : pci). (* retransmitted *)

(* timerwheel.c:151-260: what timerwheel_move does with a packet whose time
   has come.  full: there is no room for the copy; wr: the copy could be
   written to the flow. *)
Definition rxm_fire (f : frcti) (now : Z) (e : rxm) (full wr : bool) : fired :=
  if before (x_seqno e) (lwe (snd_cr f)) then Acked
  else if now - x_t0 e >? r f then Down
  else
    let f1 := if x_seqno e =? rttseq f
              then let f0 := with_rtt f (srtt f) (mdev f) (rto f + rto f) in
                   with_probe f0 (rttseq f0) (t_probe f0) false
              else f in
    if rxm_level (rto f1) >=? RXMQ_LVLS then Down
    else if full then Later f1
    else if wr then Sent f1 (set_ackno (x_hdr e) (lwe (rcv_cr f)))
    else Down.

(* ---- One end of a flow ---- *)

(* The state of the FRCT, the packets on the timer wheel, and what the
   application has written (with the time) and read so far. *)
Record ep : Type := Ep {
  fr : frcti; rxms : list rxm; wrote : list (data * Z); got : list data
}.

(* A packet in the network: when it was sent and, to state properties, the
   number of packets written before the one it carries and the number of
   packets its sender had read. *)
Record flight : Type := Flight {
  f_hdr : pci; f_body : data; f_sent : Z; f_no : Z; f_got : Z
}.

Inductive event : Type :=
| Write (d : data) (rnd : Z)        (* dev.c:1178-1229 flow_tx_sdb *)
| Read                              (* dev.c:1341-1447 flow_read *)
| Recv (fl : flight)                (* a packet arrives *)
| Ack                               (* timerwheel.c:280-300: a delayed ack *)
| Fire (n : nat) (full wr : bool)   (* the time of the n-th packet on the wheel *)
| Wopen                             (* dev.c:1278 non-blocking write *)
| Wblock                            (* the start of a wait for the window *)
| Wtimeout.                         (* a wait for the window timed out *)

Definition zlen {A} (l : list A) : Z := Z.of_nat (length l).

Fixpoint drop_nth {A} (n : nat) (l : list A) : list A :=
  match l, n with
  | [], _ => []
  | _ :: l', O => l'
  | x :: l', S n' => x :: drop_nth n' l'
  end.

(* Control packets sent by an end of the flow. *)
Definition control (x : ep) (now : Z) (ps : list pci) : list flight :=
  map (fun p => Flight p [] now 0 (zlen (got x))) ps.

(* One step of an end of the flow, and the packets it sends. *)
Definition ep_step (x : ep) (now : Z) (e : event) : res (ep * list flight) :=
  match e with
  | Write d rnd =>
      match frcti_snd (fr x) now rnd with
      | UB => UB
      | Ok (f, h) =>
          let no := zlen (wrote x) in
          Ok (Ep f (if f_rtx (snd_cr f) && rxm_fits f
                    then rxms x ++ [Rxm (p_seqno h) h d now no] else rxms x)
                (wrote x ++ [(d, now)]) (got x),
              [Flight h d now no (zlen (got x))])
      end
  | Read =>
      match frcti_queued_pdu (fr x) with
      | (f, Some d) => Ok (Ep f (rxms x) (wrote x) (got x ++ [d]), [])
      | (f, None) => Ok (Ep f (rxms x) (wrote x) (got x), [])
      end
  | Recv fl =>
      let '(f, _, out) := frcti_rcv (fr x) now (f_hdr fl) (f_body fl) in
      Ok (Ep f (rxms x) (wrote x) (got x), control x now out)
  | Ack =>
      let (f, out) := send_frct_pkt (fr x) now in
      Ok (Ep f (rxms x) (wrote x) (got x), control x now out)
  | Fire n full wr =>
      match nth_error (rxms x) n with
      | None => Ok (x, [])
      | Some e =>
          match rxm_fire (fr x) now e full wr with
          | Acked | Down => Ok (Ep (fr x) (drop_nth n (rxms x)) (wrote x) (got x), [])
          | Later f => Ok (Ep f (rxms x) (wrote x) (got x), [])
          | Sent f p =>
              Ok (Ep f (rxms x) (wrote x) (got x),
                  [Flight p (x_body e) now (x_no e) (zlen (got x))])
          end
      end
  | Wopen =>
      let '(f, _, out) := frcti_is_window_open (fr x) now in
      Ok (Ep f (rxms x) (wrote x) (got x), control x now out)
  | Wblock => Ok (Ep (window_before_wait (fr x) now) (rxms x) (wrote x) (got x), [])
  | Wtimeout =>
      let '(f, _, out) := window_timeout (fr x) now in
      Ok (Ep f (rxms x) (wrote x) (got x), control x now out)
  end.

(* ---- A flow: two ends and the network between them ---- *)

(* The packets sent by each end, the time, and whether the last run of the
   first end has not reached the second yet (only used in hypotheses). *)
Record flow : Type := Flow {
  ea : ep; eb : ep; nab : list flight; nba : list flight; clock : Z; await : bool
}.

(* Which end does what, and when. *)
Inductive side : Type := A | B.
Definition action : Type := (side * Z * event)%type.

(* The network may lose, duplicate and reorder packets, but none arrives
   later than the maximum packet lifetime after it was sent. *)
Definition flow_step (s : flow) (ac : action) : res flow :=
  let '(sd, now, e) := ac in
  match sd with
  | A =>
      match ep_step (ea s) now e with
      | UB => UB
      | Ok (x, out) =>
          Ok (Flow x (eb s) (nab s ++ out) (nba s) now
                (match e with
                 | Write _ _ => await s || snd_inactive (fr (ea s)) now
                 | _ => await s
                 end))
      end
  | B =>
      match ep_step (eb s) now e with
      | UB => UB
      | Ok (x, out) =>
          Ok (Flow (ea s) x (nab s) (nba s ++ out) now
                (match e with
                 | Recv fl => await s && negb (p_data (f_hdr fl) && p_drf (f_hdr fl))
                 | _ => await s
                 end))
      end
  end.

(* What the network can do: time passes, and what arrives was sent no more
   than the maximum packet lifetime ago. *)
Definition possible (s : flow) (ac : action) : Prop :=
  let '(sd, now, e) := ac in
  clock s <= now /\
  match e with
  | Recv fl => In fl (match sd with A => nba s | B => nab s end) /\
               now <= f_sent fl + mpl (fr (ea s))
  | _ => True
  end.

(* Both ends of a new flow. *)
Definition flow_init (a_s r_s mpl_s : Z) (reliable : bool) (ta tb : Z) : flow :=
  Flow (Ep (frcti_create a_s r_s mpl_s reliable ta) [] [] [])
       (Ep (frcti_create a_s r_s mpl_s reliable tb) [] [] [])
       [] [] (Z.max ta tb) false.
