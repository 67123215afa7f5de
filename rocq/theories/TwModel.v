(* The timer wheel for retransmissions and delayed acknowledgements:
   src/lib/timerwheel.c.  All of it happens with the lock of the wheel held,
   but for reading the clock and computing the slot in timerwheel_rxm and
   timerwheel_delayed_ack.  Times are nanoseconds. *)
From Coq Require Import ZArith List Bool.
From Verif Require Import SeqNoModel.
Import ListNotations.
Open Scope Z_scope.

(* config.h, frct.c *)
Definition RXMQ_SLOTS : Z := 256.
Definition RXMQ_RES : Z := 20.
Definition RXMQ_BUMP : Z := 4.
Definition ACKQ_SLOTS : Z := 256.
Definition ACKQ_RES : Z := 18.
Definition TICTIME : Z := 5000000.

(* timerwheel.c:30-41 struct rxm: the packet's number and when it was first
   sent; frcti, fd and flow_id are one reference to a flow.  r_at and r_rto
   are not in the code: when it was last put on the wheel and with which
   time-out.  Nothing below depends on them. *)
Record rxm : Type := Rxm { r_flow : Z; r_seqno : Z; r_t0 : Z; r_at : Z; r_rto : Z }.

(* Of a flow, what the wheel uses: whether it still exists (timerwheel.c:
   183-185), snd_cr.lwe, r, rto, rttseq. *)
Record fcb : Type := Fcb { alive : bool; snd_lwe : Z; r_time : Z; f_rto : Z; rttseq : Z }.

(* timerwheel.c:50-66, without the acknowledgements *)
Record wheel : Type := Wheel { rxms : Z -> Z -> list rxm; prv_rxm : Z -> Z; fcbs : Z -> fcb }.

Definition put {X} (f : Z -> Z -> X) (i j : Z) (v : X) : Z -> Z -> X :=
  fun a b => if (a =? i) && (b =? j) then v else f a b.
Definition put1 {X} (f : Z -> X) (i : Z) (v : X) : Z -> X := fun a => if a =? i then v else f a.

(* timerwheel.c:105-129 timerwheel_init, for a clock past the first slot *)
Definition timerwheel_init (now : Z) (fl : Z -> fcb) : wheel :=
  Wheel (fun _ _ => [])
        (fun i => Z.land (Z.shiftr (Z.shiftr now RXMQ_RES - 1) (RXMQ_BUMP * i)) (RXMQ_SLOTS - 1)) fl.

(* timerwheel.c:214-225 and 342-358: the level and the slot; None if it is
   out of the range of the wheel.  The loop stops at the first level where
   the slot fits; there are three (RXMQ_LVLS), beyond them all the same. *)
Definition place (t rto : Z) : option (Z * Z) :=
  let at_lvl lvl rslot slot := Some (lvl, Z.land (slot + rslot + 1) (RXMQ_SLOTS - 1)) in
  let rslot0 := Z.shiftr rto RXMQ_RES in
  let slot0 := Z.shiftr t RXMQ_RES in
  if rslot0 <? RXMQ_SLOTS then at_lvl 0 rslot0 slot0
  else let rslot1 := Z.shiftr rslot0 RXMQ_BUMP in
       let slot1 := Z.shiftr slot0 RXMQ_BUMP in
       if rslot1 <? RXMQ_SLOTS then at_lvl 1 rslot1 slot1
       else let rslot2 := Z.shiftr rslot1 RXMQ_BUMP in
            let slot2 := Z.shiftr slot1 RXMQ_BUMP in
            if rslot2 <? RXMQ_SLOTS then at_lvl 2 rslot2 slot2
            else None.

(* timerwheel.c:307-373 timerwheel_rxm, with the clock at t and the flow's
   time-out rto when they were read; true if the packet is on the wheel. *)
Definition timerwheel_rxm (w : wheel) (flow seqno t rto : Z) : wheel * bool :=
  match place t rto with
  | None => (w, false)
  | Some (lvl, slot) =>
      (Wheel (put (rxms w) lvl slot (rxms w lvl slot ++ [Rxm flow seqno t t rto])) (prv_rxm w) (fcbs w), true)
  end.

(* What the buffers below do with the copy: there is no room for one, it is
   written to the flow, or the flow does not take it. *)
Inductive below : Type := NoRoom | Written | Refused.

(* What happens to an entry of which the slot is reached. *)
Inductive outcome : Type :=
  Removed              (* acknowledged, or the flow is gone *)
| FlowDown             (* the flow is marked down *)
| Resent (rto : Z)     (* a copy was sent, it is on the wheel again *)
| Delayed (rto : Z).   (* no room for a copy, it is on the wheel again *)

(* timerwheel.c:157-269, one entry: at clock now, in the environment env. *)
Definition handle (env : rxm -> below) (now : Z) (w : wheel) (r : rxm) : wheel * outcome :=
  let f := fcbs w (r_flow r) in
  if negb (alive f) then (w, Removed)
  else if before (r_seqno r) (snd_lwe f) then (w, Removed)
  else if r_time f <? now - r_t0 r then (w, FlowDown)
  else
    let rto := if r_seqno r =? rttseq f then f_rto f + f_rto f else f_rto f in
    let f' := Fcb (alive f) (snd_lwe f) (r_time f) rto (rttseq f) in
    let w' := Wheel (rxms w) (prv_rxm w) (put1 (fcbs w) (r_flow r) f') in
    match place now rto with
    | None => (w', FlowDown)
    | Some (lvl, slot) =>
        let again := Wheel (put (rxms w') lvl slot
                              (Rxm (r_flow r) (r_seqno r) (r_t0 r) now rto :: rxms w' lvl slot))
                           (prv_rxm w') (fcbs w') in
        match env r with
        | NoRoom => (again, Delayed rto)
        | Written => (again, Resent rto)
        | Refused => (w', FlowDown)
        end
    end.

Fixpoint handle_all (env : rxm -> below) (now : Z) (w : wheel) (l : list rxm) : wheel * list (rxm * outcome) :=
  match l with
  | [] => (w, [])
  | r :: l' => let (w1, o) := handle env now w r in
               let (w2, os) := handle_all env now w1 l' in (w2, (r, o) :: os)
  end.

(* timerwheel.c:154-270, one slot: list_for_each_safe takes every entry off;
   what is put back on the same slot goes to its head, which the loop has
   passed. *)
Definition one_slot (env : rxm -> below) (now i j : Z) (w : wheel) : wheel * list (rxm * outcome) :=
  let x := Z.land j (RXMQ_SLOTS - 1) in
  handle_all env now (Wheel (put (rxms w) i x []) (prv_rxm w) (fcbs w)) (rxms w i x).

(* timerwheel.c:153, the n slots after j. *)
Fixpoint slots (env : rxm -> below) (now i j : Z) (n : nat) (w : wheel) : wheel * list (rxm * outcome) :=
  match n with
  | O => (w, [])
  | S n' => let (w1, o1) := one_slot env now i (j + 1) w in
            let (w2, o2) := slots env now i (j + 1) n' w1 in (w2, o1 ++ o2)
  end.

(* timerwheel.c:148-275, one level. *)
Definition level (env : rxm -> below) (now i rxm_slot : Z) (w : wheel) : wheel * list (rxm * outcome) :=
  let m := Z.land rxm_slot (RXMQ_SLOTS - 1) in
  let j := prv_rxm w i in
  let j_max_slot := if m <? j then m + RXMQ_SLOTS else m in
  let (w1, o) := slots env now i j (Z.to_nat (j_max_slot - j)) w in
  (Wheel (rxms w1) (put1 (prv_rxm w1) i m) (fcbs w1), o).

(* timerwheel.c:131-276 timerwheel_move: the entries whose slots were
   reached, and what happened to them. *)
Definition timerwheel_move (env : rxm -> below) (now : Z) (w : wheel) : wheel * list (rxm * outcome) :=
  let s0 := Z.shiftr now RXMQ_RES in
  let s1 := Z.shiftr s0 RXMQ_BUMP in
  let s2 := Z.shiftr s1 RXMQ_BUMP in
  let (w0, o0) := level env now 0 s0 w in
  let (w1, o1) := level env now 1 s1 w0 in
  let (w2, o2) := level env now 2 s2 w1 in
  (w2, o0 ++ o1 ++ o2).

(* ---- delayed acknowledgements ---- *)

(* timerwheel.c:43-48 struct ack: a_flow for frcti and flow_id; a_at is not
   in the code: when it was put on the wheel. *)
Record ack : Type := Ack { a_fd : Z; a_flow : Z; a_at : Z }.
Record acks : Type := Acks { ackq : Z -> list ack; amap : Z -> Z -> bool; prv_ack : Z }.

(* timerwheel.c:105-129 *)
Definition acks_init (now : Z) : acks :=
  Acks (fun _ => []) (fun _ _ => false) (Z.land (Z.shiftr now ACKQ_RES - 1) (ACKQ_SLOTS - 1)).

(* timerwheel.c:375-415 timerwheel_delayed_ack *)
Definition timerwheel_delayed_ack (a : acks) (fd flow now : Z) : acks :=
  let slot := Z.land (Z.shiftr (now + 2 * TICTIME) ACKQ_RES + 1) (ACKQ_SLOTS - 1) in
  if amap a slot fd then a
  else Acks (put1 (ackq a) slot (ackq a slot ++ [Ack fd flow now])) (put (amap a) slot fd true) (prv_ack a).

(* timerwheel.c:285-300, one slot: fl is the flow that has descriptor fd (None
   if there is none or it has no flow control); the flows for which an
   acknowledgement is sent. *)
Fixpoint ack_all (fl : Z -> option Z) (x : Z) (m : Z -> Z -> bool) (l : list ack) : (Z -> Z -> bool) * list ack :=
  match l with
  | [] => (m, [])
  | a :: l' => let (m', s) := ack_all fl x (put m x (a_fd a) false) l' in
               (m', match fl (a_fd a) with
                    | Some f => if f =? a_flow a then a :: s else s
                    | None => s
                    end)
  end.

Fixpoint ack_slots (fl : Z -> option Z) (j : Z) (n : nat) (a : acks) : acks * list ack :=
  match n with
  | O => (a, [])
  | S n' => let x := Z.land (j + 1) (ACKQ_SLOTS - 1) in
            let (m, s1) := ack_all fl x (amap a) (ackq a x) in
            let (a2, s2) := ack_slots fl (j + 1) n' (Acks (put1 (ackq a) x []) m (prv_ack a)) in
            (a2, s1 ++ s2)
  end.

(* timerwheel.c:277-302 *)
Definition acks_move (fl : Z -> option Z) (now : Z) (a : acks) : acks * list ack :=
  let s := Z.land (Z.shiftr now ACKQ_RES) (ACKQ_SLOTS - 1) in
  let j := prv_ack a in
  let s' := if s <? j then s + ACKQ_SLOTS else s in
  let (a1, o) := ack_slots fl j (Z.to_nat (s' - j)) a in
  (Acks (ackq a1) (amap a1) (Z.land s' (ACKQ_SLOTS - 1)), o).
