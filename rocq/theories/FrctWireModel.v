(* The FRCT header in memory: the stores of __frcti_snd and __send_frct_pkt
   and the loads of __frcti_rcv, in src/lib/frct.c.  The machine may be
   little- or big-endian: hton32 and a 32-bit store together put the most
   significant byte first. *)
From Coq Require Import NArith ZArith List Bool.
From Verif Require Import Bytes FrctModel.
Import ListNotations.
Open Scope N_scope.

(* frct.c:80-100: the flags, and the size and the offsets in struct frct_pci. *)
Definition FRCT_DATA : N := 1.
Definition FRCT_DRF : N := 2.
Definition FRCT_ACK : N := 4.
Definition FRCT_FC : N := 8.
Definition FRCT_RDVS : N := 16.
Definition FRCT_PCILEN : nat := 12.
Definition OFF_SEQNO : nat := 4.
Definition OFF_ACKNO : nat := 8.

(* A store that ors bytes into memory. *)
Fixpoint or_bytes (buf bs : list N) : list N :=
  match buf, bs with
  | b :: buf', c :: bs' => N.lor b c :: or_bytes buf' bs'
  | _, _ => buf
  end.

(* pci->flags |= v *)
Definition or_flag (buf : list N) (v : N) : list N := or_bytes buf [v].

Definition put_field (buf : list N) (off : nat) (v : N) : list N :=
  match put buf off (be 4 v) with Some b => b | None => buf end.

(* frct.c:707-751: the header stores of __frcti_snd, in the order of the
   code. *)
Definition snd_bytes (drf fc acks : bool) (seqno rwe ackno : N) : list N :=
  let b := repeat 0 FRCT_PCILEN in
  let b := or_flag b FRCT_DATA in
  let b := if drf then or_flag b FRCT_DRF else b in
  let b := put_field b OFF_SEQNO seqno in
  let b := if fc then or_bytes (or_flag b FRCT_FC) (be 4 (N.land rwe 0x00FFFFFF)) else b in
  if acks then put_field (or_flag b FRCT_ACK) OFF_ACKNO ackno else b.

(* frct.c:253-259: the header stores of __send_frct_pkt. *)
Definition ctrl_bytes (flags ackno rwe : N) : list N :=
  let b := repeat 0 FRCT_PCILEN in
  let b := put_field b 0 rwe in
  let b := match b with _ :: t => flags :: t | [] => [] end in
  put_field b OFF_ACKNO ackno.

(* timerwheel.c:245: the acknowledgement of a retransmitted packet. *)
Definition rxm_bytes (buf : list N) (ackno : N) : list N := put_field buf OFF_ACKNO ackno.

Definition has (flags f : N) : bool := negb (N.land flags f =? 0).

(* frct.c:816-818, 824-883: the loads of __frcti_rcv; None if the packet is
   shorter than the header. *)
Definition rcv_bytes (buf : list N) : option pci :=
  match get buf 0 4, get buf OFF_SEQNO 4, get buf OFF_ACKNO 4 with
  | Some (fl :: w), Some s, Some k =>
      Some (Pci (has fl FRCT_DATA) (has fl FRCT_DRF) (has fl FRCT_ACK) (has fl FRCT_FC) (has fl FRCT_RDVS)
             (Z.of_N (unbe (0 :: w))) (Z.of_N (unbe s)) (Z.of_N (unbe k)))
  | _, _, _ => None
  end.
