(* Flow settings: fccntl (src/lib/dev.c:1002-1152), frcti_setflags and
   frcti_getflags (src/lib/frct.c:446-480), and what the flags and the access
   word of a ring do to reads and writes (dev.c:1269-1270, 1376-1377,
   src/lib/shm_rbuff_pthr.c:61-68, 139-150).  Two programs share a pair of
   rings: what one writes to the other reads. *)
From Coq Require Import List NArith ZArith Bool.
Import ListNotations.
Open Scope N_scope.

(* include/ouroboros/fccntl.h:31-44 *)
Definition FLOWFRDONLY : N := 0.
Definition FLOWFWRONLY : N := 1.
Definition FLOWFRDWR : N := 2.
Definition FLOWFACCMODE : N := 3.
Definition FLOWFDOWN : N := 4.
Definition FLOWFWNOPART : N := 8192.
Definition FLOWFDEFAULT : N := 8194.      (* FLOWFRDWR | FLOWFWNOPART *)
(* include/ouroboros/fccntl.h:49 *)
Definition FRCTFRTX : N := 1.
(* include/ouroboros/shm_rbuff.h *)
Definition ACL_RDWR : N := 0.
Definition ACL_RDONLY : N := 1.
Definition ACL_FLOWDOWN : N := 2.
Definition ACL_FLOWPEER : N := 4.

(* dev.c:90-113 struct flow, the part fccntl reads and writes.  Timeouts are
   opaque values; the two booleans and timespecs are options. *)
Record fl : Type := Fl {
  oflags : N;
  snd_timeo : option Z;
  rcv_timeo : option Z;
  qs : N;
  frct : option N          (* frcti's snd_cr.cflags, if there is an frcti *)
}.

(* dev.c:442-540 flow_init: what a new flow starts with. *)
Definition fl_init (q : N) (fr : option N) : fl := Fl FLOWFDEFAULT None None q fr.

Inductive cmd : Type :=
| SSndTimeo (t : option Z) | GSndTimeo (ptr : bool)
| SRcvTimeo (t : option Z) | GRcvTimeo (ptr : bool)
| GQosSpec (ptr : bool)
| GRxqLen (ptr : bool) | GTxqLen (ptr : bool)
| SFlags (f : N) | GFlags (ptr : bool)
| FrctS (f : N) | FrctG (ptr : bool)
| Unknown.

Inductive res : Type :=
| Done | Value (n : N) | Time (t : Z) | EInval | EPerm | ENotSup
| Crash.   (* a NULL pointer is written through *)

(* dev.c:1081-1111 case FLOWSFLAGS: the new access words of rx_rb and tx_rb,
   from that of rx_rb (both are read from rx_rb, 1083-1084).  oflags is a
   uint16_t (dev.c:99). *)
Definition set_flags (f rx : N) : N * N :=
  let o := f mod 65536 in
  let rx1 := if N.land o FLOWFWRONLY =? 0 then rx else N.lor rx ACL_RDONLY in
  let rx2 := if N.land o FLOWFRDWR =? 0 then rx1 else N.lor rx1 ACL_RDWR in
  if N.land o FLOWFDOWN =? 0
  then (N.ldiff rx2 ACL_FLOWDOWN, N.ldiff rx ACL_FLOWDOWN)
  else (N.lor rx2 ACL_FLOWDOWN, N.lor rx ACL_FLOWDOWN).

(* frct.c:463-478 frcti_setflags. *)
Definition frct_setflags (c f : N) : N :=
  N.land (N.land c FRCTFRTX) (N.lor f FRCTFRTX).

(* dev.c:1002-1152 fccntl on an allocated flow, with the access words and the
   queue lengths of its rings. *)
Definition fccntl (f : fl) (rx tx : N) (rxq txq : N) (c : cmd) : fl * N * N * res :=
  match c with
  | SSndTimeo t => (Fl (oflags f) t (rcv_timeo f) (qs f) (frct f), rx, tx, Done)
  | SRcvTimeo t => (Fl (oflags f) (snd_timeo f) t (qs f) (frct f), rx, tx, Done)
  | GSndTimeo p => (f, rx, tx, if p then match snd_timeo f with Some t => Time t | None => EPerm end else EInval)
  | GRcvTimeo p => (f, rx, tx, if p then match rcv_timeo f with Some t => Time t | None => EPerm end else EInval)
  | GQosSpec p => (f, rx, tx, if p then Value (qs f) else EInval)
  | GRxqLen p => (f, rx, tx, if p then Value rxq else Crash)
  | GTxqLen p => (f, rx, tx, if p then Value txq else Crash)
  | SFlags v => let (rx', tx') := set_flags v rx in
                (Fl (v mod 65536) (snd_timeo f) (rcv_timeo f) (qs f) (frct f), rx', tx', Done)
  | GFlags p => (f, rx, tx, if p then Value (oflags f) else EInval)
  | FrctS v => match frct f with
               | None => (f, rx, tx, EPerm)
               | Some c => (Fl (oflags f) (snd_timeo f) (rcv_timeo f) (qs f)
                               (Some (frct_setflags c (v mod 65536))), rx, tx, Done)
               end
  | FrctG p => (f, rx, tx, if p then match frct f with Some c => Value c | None => EPerm end else EInval)
  | Unknown => (f, rx, tx, ENotSup)
  end.

(* Two programs and the rings between them. *)
Record pair : Type := Pair {
  fa : fl; fb : fl;
  a2b : N;        (* access word of the ring A writes and B reads *)
  b2a : N
}.

Inductive who : Type := A | B.

Inductive event : Type :=
| Ctl (w : who) (c : cmd)
| Gone (w : who)      (* w deallocates: dev.c:2005-2040 ipcp_flow_fini, 388-431 __flow_fini *)
| Silent (w : who).   (* w's peer is declared dead: dev.c:309-320 *)

(* dev.c:309-320 _flow_keepalive: nothing if the flow is down already. *)
Definition silent_acl (rx : N) : N :=
  if N.land rx (N.lor ACL_FLOWPEER ACL_FLOWDOWN) =? 0 then ACL_FLOWPEER else rx.

(* Queue lengths do not matter for the settings: 0. *)
Definition step (s : pair) (e : event) : pair * res :=
  match e with
  | Ctl A c => match fccntl (fa s) (b2a s) (a2b s) 0 0 c with
               | (f, rx, tx, r) => (Pair f (fb s) tx rx, r)
               end
  | Ctl B c => match fccntl (fb s) (a2b s) (b2a s) 0 0 c with
               | (f, rx, tx, r) => (Pair (fa s) f rx tx, r)
               end
  | Gone _ => (Pair (fa s) (fb s) ACL_FLOWDOWN ACL_FLOWDOWN, Done)
  | Silent A => (Pair (fa s) (fb s) (a2b s) (silent_acl (b2a s)), Done)
  | Silent B => (Pair (fa s) (fb s) (silent_acl (a2b s)) (b2a s), Done)
  end.

Definition run (s : pair) (l : list event) : pair := fold_left (fun s e => fst (step s e)) l s.

Definition start (qa qb : N) (ra rb : option N) : pair :=
  Pair (fl_init qa ra) (fl_init qb rb) ACL_RDWR ACL_RDWR.

(* What a write through w meets, before the ring's room is looked at:
   dev.c:1269-1270 and shm_rbuff_pthr.c:61-68. *)
Inductive wgate : Type := WOpen | WPerm | WDown | WNotAlloc | WVanish.

Definition ring_gate (acl : N) : wgate :=
  if acl =? ACL_RDWR then WOpen
  else if negb (N.land acl ACL_FLOWDOWN =? 0) then WDown
  else if negb (N.land acl ACL_RDONLY =? 0) then WNotAlloc
  else WVanish.

Definition write_gate (s : pair) (w : who) : wgate :=
  let f := match w with A => fa s | B => fb s end in
  if N.land (oflags f) FLOWFACCMODE =? FLOWFRDONLY then WPerm
  else ring_gate (match w with A => a2b s | B => b2a s end).

(* What a read from an empty ring reports: shm_rbuff_pthr.c:139-150. *)
Inductive rgate : Type := RWait | RDown | RPeer.

Definition read_gate (s : pair) (w : who) : rgate :=
  let acl := match w with A => b2a s | B => a2b s end in
  if negb (N.land acl ACL_FLOWDOWN =? 0) then RDown
  else if negb (N.land acl ACL_FLOWPEER =? 0) then RPeer
  else RWait.
