(** Model of the IPCP over Ethernet with a DIX header, src/ipcpd/eth/eth.c
    built with BUILD_ETH_DIX, Linux raw sockets (HAVE_RAW_SOCKETS): the frames,
    the threads that read, handle and send them, the resolution of names and
    flow allocation.

    Not modelled: waiting for the answer to a name query (ShimModel), memory
    exhaustion, failures of sendto, the netlink monitor, start-up, netmap and
    BPF.  A hardware address is a number; the functions of the buffer are those
    of DuBuffModel, here only the bounds matter. *)
From Coq Require Import List Arith NArith ZArith Bool.
From Verif Require Import Bytes.
From Verif Require UdpModel ShimModel.
Import ListNotations.
Open Scope N_scope.

Notation qosspec := UdpModel.qosspec.
Notation QS := UdpModel.QS.
Notation g := UdpModel.g.
Notation to_i8 := UdpModel.to_i8.
Notation of_i8 := UdpModel.of_i8.

Definition FLOW_REQ : N := 0.                (* eth.c:143-146 *)
Definition FLOW_REPLY : N := 1.
Definition NAME_QUERY_REQ : N := 2.
Definition NAME_QUERY_REPLY : N := 3.
Definition MGMT_EID : N := 0.                (* eth.c:121 *)
Definition MGMT_FRAME_SIZE : N := 2048.      (* eth.c:141 *)
Definition HEADER : nat := 18.               (* eth.c:117, 125 ETH_HEADER_TOT_SIZE *)
Definition SYS_MAX_FLOWS : N := 10240.
Definition DU_BUFF_OVERHEAD : N := 288.      (* shm_rdrbuff.c:46: 256 + 32 *)

(** The configuration of a node: its hardware address, the ethertype of the
    layer (as it is on the wire) and the MTU (eth.c:104-105). *)
Record cfg := Cfg { me : N; et : N; mtu : N }.

(* eth.c:150-175 struct mgmt_msg: packed; the offsets *)
Definition o_seid : nat := 0.
Definition o_deid : nat := 2.
Definition o_loss : nat := 4.
Definition o_bandwidth : nat := 8.
Definition o_ber : nat := 16.
Definition o_max_gap : nat := 20.
Definition o_delay : nat := 24.
Definition o_timeout : nat := 28.
Definition o_cypher_s : nat := 32.
Definition o_in_order : nat := 34.
Definition o_code : nat := 35.
Definition o_availability : nat := 36.
Definition o_response : nat := 37.
Definition MSG : nat := 38.

(* eth.c:177-191 struct eth_frame, 373-456 eth_ipcp_send_frame: the frame, if
   one is sent.  The MTU is at least the header's four bytes (else the
   difference at 396 would wrap). *)
Definition send (c : cfg) (dst eid : N) (p : list N) : option (list N) :=
  let len := N.of_nat (length p) in
  if mtu c - 4 <? len then None
  else Some (be 6 dst ++ be 6 (me c) ++ be 2 (et c) ++ be 2 eid ++ be 2 len ++ p).

(* eth.c:458-512 eth_ipcp_alloc: the message; [j]: the three bytes of deid and
   response, which are not set *)
Definition enc_req (eid : N) (hash : list N) (q : qosspec) (data j : list N) : list N :=
  be 2 eid ++ firstn 2 j ++ be 4 (UdpModel.loss q) ++ be 8 (UdpModel.bandwidth q) ++ be 4 (UdpModel.ber q) ++
  be 4 (UdpModel.max_gap q) ++ be 4 (UdpModel.delay q) ++ be 4 (UdpModel.timeout q) ++ be 2 (UdpModel.cypher_s q) ++
  le 1 (UdpModel.in_order q) ++ le 1 FLOW_REQ ++ le 1 (UdpModel.availability q) ++ skipn 2 j ++ hash ++ data.

(* eth.c:514-562 eth_ipcp_alloc_resp: the message; [j]: 31 bytes of QoS before
   the code and one after it *)
Definition enc_reply (seid deid : N) (response : Z) (data j : list N) : list N :=
  be 2 seid ++ be 2 deid ++ firstn 31 j ++ le 1 FLOW_REPLY ++ skipn 31 j ++ [to_i8 response] ++ data.

(* eth.c:656-692 eth_ipcp_name_query_req and 1538-1591 eth_ipcp_query: the
   message; [j]: 35 bytes before the code and two after it *)
Definition enc_query (code : N) (hash j : list N) : list N := firstn 35 j ++ le 1 code ++ skipn 35 j ++ hash.

(** What the reader does with a frame. *)
Inductive rx :=
| Dropped
| ToMgmt (src : N) (buf : list N) (len : nat)  (* queued for the handler *)
| ToFlow (fd : N) (p : list N)                 (* written to the flow *)
| Overrun.           (* memcpy beyond frame->buf, or a failed assertion *)

(* eth.c:825-997 eth_ipcp_packet_reader.  [f]: the frame on the wire, which
   recv cuts (889); [stale]: what the memory after the received bytes holds
   (long enough for any length); [reuse]: what is in the buffer when it is
   copied, if somebody else got it after its release (936); [junk]: what malloc
   left in the rest of the frame (938).  The destination is compared with the
   node's and the broadcast address, but nothing depends on the result
   (907-917). *)
Definition reader (c : cfg) (f stale : list N) (reuse : option (list N)) (junk : list N) : rx :=
  let b := firstn (N.to_nat (mtu c) + HEADER) f in
  match b with
  | [] => Dropped
  | _ =>
      let mem := b ++ stale in
      let len := g mem 16 2 in
      if negb (g mem 12 2 =? et c) then Dropped
      else
        let eid := g mem 14 2 in
        if eid =? MGMT_EID then
          if MGMT_FRAME_SIZE <? len then Overrun
          else
            let m := match reuse with Some m => m | None => mem end in
            ToMgmt (g m 6 6) (firstn (N.to_nat len) (skipn HEADER m) ++ junk) (N.to_nat len)
        else if mtu c + DU_BUFF_OVERHEAD <? len then Overrun        (* assert, shm_rdrbuff.c:594 *)
        else if SYS_MAX_FLOWS <=? eid then Overrun                  (* assert, dev.c:1966 *)
        else ToFlow eid (firstn (N.to_nat len) (skipn HEADER mem))
  end.

(* eth.c:193-201 struct ef *)
Record ef := Ef { r_eid : Z; r_addr : N }.
Definition table := N -> ef.
Definition upd (f : table) (fd : N) (x : ef) : table := fun k => if k =? fd then x else f k.

(* eth.c:210-250 eth_data: the flows, the names and the queued frames *)
Record st := St { tbl : table; names : ShimModel.shim; frames : list (N * list N * nat) }.

Inductive ev :=
| Reg (h : list N) | Unreg (h : list N)
| Query (h j : list N)
| Alloc (fd : N) (h : list N) (q : qosspec) (data j : list N)
| Recv (f stale : list N) (reuse : option (list N)) (junk : list N)
| Handle (fd : option N) (j : list N)   (* the descriptor the IRMd gives for a request *)
| Respond (fd : N) (response : Z) (data j : list N)
| Packet (fd : N) (p : list N)
| Dealloc (fd : N).

(** What the rest of the world sees. *)
Inductive out :=
| Sent (f : list N)
| Delivered (fd : N) (p : list N)
| Asked (h : list N) (q : qosspec) (data : list N)      (* the IRMd, for a flow *)
| Answered (fd : N) (response : Z) (data : list N)      (* the IRMd, about an allocation *)
| Resolved (h : list N)                                 (* a query for the name *)
| Failed
| Crashed.

Definition sent (o : option (list N)) : list out := match o with Some f => [Sent f] | None => [Failed] end.
Definition shim_do (s : st) (o : ShimModel.op) : st := St (tbl s) (fst (ShimModel.step (names s) o)) (frames s).
Definition BROADCAST : N := 2 ^ 48 - 1.

Section Node.
Variable L : nat.   (* ipcp_dir_hash_len() *)
Variable c : cfg.

(* eth.c:708-780 eth_ipcp_mgmt_frame.  The buffer has room for every read,
   whatever the length of the message. *)
Definition mgmt (s : st) (src : N) (buf : list N) (len : nat) (fd : option N) (j : list N) : st * list out :=
  let code := g buf o_code 1 in
  let hash := firstn L (skipn MSG buf) in
  if code =? FLOW_REQ then
    if Nat.ltb len (MSG + L) then (s, [Crashed])                                 (* assert, 723 *)
    else if ShimModel.find_reg (ShimModel.registry (names s)) hash then
      (* 564-598 eth_ipcp_req *)
      (match fd with
       | Some fd => St (upd (tbl s) fd (Ef (Z.of_N (g buf o_seid 2)) src)) (names s) (frames s)
       | None => s
       end,
       [Asked hash (QS (g buf o_delay 4) (g buf o_bandwidth 8) (g buf o_availability 1) (g buf o_loss 4)
                       (g buf o_ber 4) (g buf o_in_order 1) (g buf o_max_gap 4) (g buf o_cypher_s 2)
                       (g buf o_timeout 4))
              (firstn (len - (MSG + L)) (skipn (MSG + L) buf))])
    else (s, [])
  else if code =? FLOW_REPLY then
    if Nat.ltb len MSG then (s, [Crashed])                                       (* assert, 752 *)
    else
      (* 600-654 eth_ipcp_alloc_reply *)
      let fd := g buf o_deid 2 in
      let response := of_i8 (g buf o_response 1) in
      if SYS_MAX_FLOWS <=? fd then (s, [Crashed])                                (* 634, 638; assert, dev.c:1849 *)
      else
        (if (response =? 0)%Z then St (upd (tbl s) fd (Ef (Z.of_N (g buf o_seid 2)) src)) (names s) (frames s) else s,
         [Answered fd response (firstn (len - MSG) (skipn MSG buf))])
  else if code =? NAME_QUERY_REQ then
    (* 656-692 eth_ipcp_name_query_req *)
    (s, if ShimModel.find_reg (ShimModel.registry (names s)) hash
        then sent (send c src MGMT_EID (enc_query NAME_QUERY_REPLY hash j)) else [])
  else if code =? NAME_QUERY_REPLY then
    (* 694-706 eth_ipcp_name_query_reply *)
    (shim_do s (ShimModel.DirAdd hash src), [Resolved hash])
  else (s, []).

Definition step (s : st) (e : ev) : st * list out :=
  match e with
  (* eth.c:1520-1536 *)
  | Reg h => (shim_do s (ShimModel.RegAdd h), [])
  | Unreg h => (shim_do s (ShimModel.RegDel h), [])
  (* eth.c:1538-1591 eth_ipcp_query *)
  | Query h j =>
      (s, match ShimModel.find_any (ShimModel.directory (names s)) h with
          | Some _ => [Resolved h]
          | None => sent (send c BROADCAST MGMT_EID (enc_query NAME_QUERY_REQ h j))
          end)
  (* eth.c:1593-1654 eth_ipcp_flow_alloc *)
  | Alloc fd h q data j =>
      (s, match ShimModel.find_any (ShimModel.directory (names s)) h with
          | Some a => sent (send c a MGMT_EID (enc_req fd h q data j))
          | None => [Failed]
          end)
  (* eth.c:949 list_add puts the frame first *)
  | Recv f stale reuse junk =>
      match reader c f stale reuse junk with
      | Dropped => (s, [])
      | ToMgmt src buf len => (St (tbl s) (names s) ((src, buf, len) :: frames s), [])
      | ToFlow fd p => (s, [Delivered fd p])
      | Overrun => (s, [Crashed])
      end
  (* eth.c:782-823 eth_ipcp_mgmt_handler *)
  | Handle fd j =>
      match frames s with
      | [] => (s, [])
      | (src, buf, len) :: fs => mgmt (St (tbl s) (names s) fs) src buf len fd j
      end
  (* eth.c:1656-1714 eth_ipcp_flow_alloc_resp; r_eid becomes a uint16_t *)
  | Respond fd response data j =>
      (s, sent (send c (r_addr (tbl s fd)) MGMT_EID
                  (enc_reply fd (Z.to_N (r_eid (tbl s fd) mod 2 ^ 16)) response data j)))
  (* eth.c:1004-1078 eth_ipcp_packet_writer *)
  | Packet fd p =>
      (s, sent (send c (r_addr (tbl s fd)) (Z.to_N (r_eid (tbl s fd) mod 2 ^ 16)) p))
  (* eth.c:1716-1743 eth_ipcp_flow_dealloc *)
  | Dealloc fd => (St (upd (tbl s) fd (Ef (-1) 0)) (names s) (frames s), [])
  end.

(* eth.c:252-338 eth_data_init *)
Definition init : st := St (fun _ => Ef (-1) 0) ShimModel.shim_create [].

(** A history, latest event first: the state and everything that came out,
    oldest first. *)
Fixpoint run (h : list ev) : st * list out :=
  match h with
  | [] => (init, [])
  | e :: h => let (s, o) := run h in let (s', o') := step s e in (s', o ++ o')
  end.
End Node.
