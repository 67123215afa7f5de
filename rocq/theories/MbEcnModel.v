(** Model of the multi-bit ECN congestion avoidance of the unicast IPCP,
    src/ipcpd/unicast/ca/mb-ecn.c.  size_t and time_t have 64 bits. *)
From Coq Require Import List NArith ZArith Bool.
Import ListNotations.
Open Scope N_scope.

Definition two64 : N := 2 ^ 64.
Definition w64 (x : N) : N := x mod two64.
Definition sub64 (a b : N) : N := (a + (two64 - b mod two64)) mod two64.
(** Shifts of a size_t; shifting by 64 or more is undefined. *)
Definition shl (a k : N) : option N := if k <? 64 then Some (w64 (a * 2 ^ k)) else None.
Definition shr (a k : N) : option N := if k <? 64 then Some (a / 2 ^ k) else None.
Definition bind {A B} (o : option A) (f : A -> option B) : option B :=
  match o with Some x => f x | None => None end.

(** mb-ecn.c:41-49. *)
Definition CA_SHFT : N := 5.
Definition CA_WND : N := 32.
Definition CA_UPD : N := 8.
Definition CA_SLOT : N := 24.
Definition CA_INC : N := 2 ^ 16.
Definition CA_IWL : N := 2 ^ 16.
Definition CA_MINPS : N := 8.
Definition CA_MAXPS : N := 64.
Definition BILLION : N := 1000000000.

(** mb-ecn.c:52-65, struct mb_ecn_ctx. *)
Record ctx : Type := mk_ctx {
  rx_ece : N; rx_ctr : N;
  tx_ece : N; tx_ctr : N; tx_wbc : N; tx_wpc : N; tx_wbl : N; tx_cav : bool;
  tx_mul : N; tx_inc : N; tx_slot : N
}.

(** mb-ecn.c:78-98, mb_ecn_ctx_create at time [now] (ts_to_ns). *)
Definition ctx_create (now : N) : ctx :=
  mk_ctx 0 0 0 0 0 0 CA_IWL false CA_SLOT CA_INC (now / 2 ^ CA_SLOT).

(** mb-ecn.c:105, _slot_after. *)
Definition slot_after (new old : N) : bool := 2 ^ 63 <=? sub64 old new.

(** mb-ecn.c:147-152: how often [pkts] must be doubled to reach CA_MINPS; [None]
    if it never does. *)
Fixpoint scale_up (fuel : nat) (pkts fact : N) : option N :=
  if pkts <? CA_MINPS then
    match fuel with
    | O => None
    | S k => scale_up k (w64 (pkts * 2)) (fact + 1)
    end
  else Some fact.
(** mb-ecn.c:161-166: how often it must be halved to get down to CA_MAXPS. *)
Fixpoint scale_down (fuel : nat) (pkts fact : N) : option N :=
  if CA_MAXPS <? pkts then
    match fuel with
    | O => None
    | S k => scale_down k (pkts / 2) (fact + 1)
    end
  else Some fact.

(** mb-ecn.c:133-141: the new limit at the end of a slot.  [>> (CA_SHFT + 8)] is
    the division by 2^13. *)
Definition adjust (cav : bool) (wbl wbc ece inc : N) : N :=
  if negb cav then
    if wbl <? wbc then w64 (wbl * 2) else wbl
  else if negb (ece =? 0) then sub64 wbl (w64 (wbl * ece) / 2 ^ (CA_SHFT + 8))
  else w64 (wbc + inc).

(** mb-ecn.c:107-185, mb_ecn_ctx_update_snd at time [now], with the returned
    wnd.wait, a time_t. *)
Definition update_snd (c : ctx) (now len : N) : option (ctx * Z) :=
  bind (shr now (tx_mul c)) (fun slot =>
  let ctr := w64 (tx_ctr c + 1) in
  let wpc := w64 (tx_wpc c + 1) in
  let wbc := w64 (tx_wbc c + len) in
  let ece := if CA_WND <? ctr then 0 else tx_ece c in
  bind (
    if slot_after slot (tx_slot c) then
      let wbl := adjust (tx_cav c) (tx_wbl c) wbc ece (tx_inc c) in
      if wpc <? CA_MINPS then
        bind (scale_up 64 wpc 0) (fun fact =>
        bind (shr slot fact) (fun sl =>
        bind (shl wbl fact) (fun wbl' =>
        bind (shl (tx_inc c) fact) (fun inc' =>
        let carry := sl mod 2 ^ fact =? 0 in
        Some (mk_ctx (rx_ece c) (rx_ctr c) ece ctr
                     (if carry then wbc else 0) (if carry then wpc else 0)
                     wbl' (tx_cav c) (w64 (tx_mul c + fact)) inc'
                     (if carry then w64 (sl + 1) else sl))))))
      else if CA_MAXPS <? wpc then
        bind (scale_down 64 wpc 0) (fun fact =>
        bind (shl slot fact) (fun sl =>
        bind (shr wbl fact) (fun wbl' =>
        bind (shr (tx_inc c) fact) (fun inc' =>
        Some (mk_ctx (rx_ece c) (rx_ctr c) ece ctr 0 0
                     wbl' (tx_cav c) (sub64 (tx_mul c) fact) inc' sl)))))
      else
        Some (mk_ctx (rx_ece c) (rx_ctr c) ece ctr 0 0 wbl (tx_cav c) (tx_mul c) (tx_inc c) slot)
    else
      Some (mk_ctx (rx_ece c) (rx_ctr c) ece ctr wbc wpc (tx_wbl c) (tx_cav c) (tx_mul c)
                   (tx_inc c) (tx_slot c))) (fun c' =>
  if tx_wbl c' <? tx_wbc c' then
    bind (shl (w64 (tx_slot c' + 1)) (tx_mul c')) (fun e =>
    let w := sub64 e now in
    Some (c', if w <? 2 ^ 63 then Z.of_N w else (Z.of_N w - 2 ^ 64)%Z))
  else Some (c', 0%Z))).

(** mb-ecn.c:187-198, mb_ecn_wnd_wait: the argument of nanosleep, seconds and
    nanoseconds, if it is called. *)
Definition wnd_wait (wait : Z) : option (Z * Z) :=
  if (0 <? wait)%Z then
    Some (if (Z.of_N BILLION <? wait)%Z then (1, 0)%Z else (0, wait)%Z)
  else None.
(** POSIX: nanosleep suspends the thread only if the nanoseconds are valid. *)
Definition nanosleep_valid (ts : Z * Z) : bool :=
  ((0 <=? fst ts) && (0 <=? snd ts) && (snd ts <? 1000000000))%Z.

(** mb-ecn.c:200-231, mb_ecn_ctx_update_rcv: whether to tell the sender, and the
    level.  rx_ece is a uint16_t, ecn a uint8_t. *)
Definition w16 (x : N) : N := x mod 2 ^ 16.
Definition update_rcv (c : ctx) (ecn : N) : ctx * bool * option N :=
  if N.lor (rx_ece c) ecn =? 0 then (c, false, None)
  else
    let set e k := mk_ctx e k (tx_ece c) (tx_ctr c) (tx_wbc c) (tx_wpc c) (tx_wbl c) (tx_cav c)
                          (tx_mul c) (tx_inc c) (tx_slot c) in
    if ecn =? 0 then
      let e := rx_ece c / 4 in (set e (rx_ctr c), e =? 0, Some e)
    else if rx_ece c =? 0 then (set ecn 0, true, Some ecn)
    else
      let e := w16 (w16 (rx_ece c - rx_ece c / 2 ^ CA_SHFT) + ecn) in
      (* (ctr++ & 7) == true, that is, == 1 *)
      (set e (w64 (rx_ctr c + 1)), rx_ctr c mod CA_UPD =? 1, Some e).

(** mb-ecn.c:234-242, mb_ecn_ctx_update_ece. *)
Definition update_ece (c : ctx) (ece : N) : ctx :=
  mk_ctx (rx_ece c) (rx_ctr c) ece 0 (tx_wbc c) (tx_wpc c) (tx_wbl c) true
         (tx_mul c) (tx_inc c) (tx_slot c).

(** What can happen to a flow's context. *)
Inductive ev : Type :=
| Snd (now len : N)      (* a packet is sent *)
| Rcv (ecn : N)          (* a packet with this mark arrives *)
| Ece (ece : N).         (* the remote side reports this level *)
Definition step (c : ctx) (e : ev) : option (ctx * (Z * option N)) :=
  match e with
  | Snd now len => bind (update_snd c now len) (fun '(c', w) => Some (c', (w, None)))
  | Rcv ecn => let '(c', _, r) := update_rcv c ecn in Some (c', (0%Z, r))
  | Ece ece => Some (update_ece c ece, (0%Z, None))
  end.
Fixpoint run (c : ctx) (es : list ev) : option ctx :=
  match es with [] => Some c | e :: t => bind (step c e) (fun '(c', _) => run c' t) end.
