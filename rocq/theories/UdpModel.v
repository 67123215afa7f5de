(** Model of the IPCP over UDP, src/ipcpd/udp/main.c: its messages, the
    threads that read, handle and send datagrams, and flow allocation.

    Not modelled: the directory of names (see ShimModel) and DNS, memory
    exhaustion, failures of sendto, threads beyond the splitting of
    udp_ipcp_flow_alloc and of the reader from the handler.  An address (IP
    address and port) is a number; 0 is the zeroed sockaddr. *)
From Coq Require Import List Arith NArith ZArith Bool.
From Verif Require Import Bytes.
Import ListNotations.
Open Scope N_scope.

Definition FLOW_REQ : N := 1.                (* main.c:59-60 *)
Definition FLOW_REPLY : N := 2.
Definition MAX_PACKET : N := 8980.           (* main.c:63 *)
Definition MGMT_EID : N := 0.                (* main.c:74 *)
Definition MGMT_BUF : N := 2048.             (* main.c:76 *)
Definition SYS_MAX_FLOWS : N := 10240.

(* include/ouroboros/qos.h, qosspec_t *)
Record qosspec := QS {
  delay : N; bandwidth : N; availability : N; loss : N; ber : N; in_order : N;
  max_gap : N; cypher_s : N; timeout : N
}.

(* int8_t and int32_t members *)
Definition to_i8 (z : Z) : N := Z.to_N (z mod 256).
Definition of_i8 (b : N) : Z := if b <? 128 then Z.of_N b else (Z.of_N b - 256)%Z.
Definition to_i32 (x : N) : Z :=
  let y := x mod 2 ^ 32 in if y <? 2 ^ 31 then Z.of_N y else (Z.of_N y - 2 ^ 32)%Z.
Definition to_u32 (z : Z) : N := Z.to_N (z mod 2 ^ 32).

(* main.c:87-106 struct mgmt_msg: packed *)
Definition o_s_eid : nat := 4.
Definition o_d_eid : nat := 8.
Definition o_code : nat := 12.
Definition o_response : nat := 13.
Definition o_availability : nat := 14.
Definition o_in_order : nat := 15.
Definition o_bandwidth : nat := 16.
Definition o_delay : nat := 24.
Definition o_loss : nat := 28.
Definition o_ber : nat := 32.
Definition o_max_gap : nat := 36.
Definition o_timeout : nat := 40.
Definition o_cypher_s : nat := 44.
Definition MSG : nat := 46.

(* main.c:202-248 udp_ipcp_port_alloc, the datagram.  [j] is what malloc left
   in the members that are not assigned (d_eid and response): five bytes. *)
Definition enc_req (s_eid : N) (dst : list N) (qs : qosspec) (data : list N) (j : list N) : list N :=
  be 4 MGMT_EID ++ be 4 s_eid ++ firstn 4 j ++ le 1 FLOW_REQ ++ skipn 4 j ++
  le 1 (availability qs) ++ le 1 (in_order qs) ++ be 8 (bandwidth qs) ++ be 4 (delay qs) ++
  be 4 (loss qs) ++ be 4 (ber qs) ++ be 4 (max_gap qs) ++ be 4 (timeout qs) ++ be 2 (cypher_s qs) ++
  dst ++ data.

(* main.c:250-281 udp_ipcp_port_alloc_resp; [j]: the 32 bytes of the QoS *)
Definition enc_reply (s_eid d_eid : N) (response : Z) (data : list N) (j : list N) : list N :=
  be 4 MGMT_EID ++ be 4 s_eid ++ be 4 d_eid ++ le 1 FLOW_REPLY ++ [to_i8 response] ++ j ++ data.

(* main.c:511-582, udp_ipcp_packet_writer: the length is kept in a uint16_t;
   the datagram for a packet, if one is sent *)
Definition enc_data (d_eid : Z) (p : list N) : option (list N) :=
  let len := N.of_nat (length p) mod 2 ^ 16 in
  if MAX_PACKET <? len then None
  else Some (be 4 (to_u32 d_eid) ++ firstn (N.to_nat len) p).

(** What the reader does with a datagram. *)
Inductive rx :=
| Dropped
| ToMgmt (b : list N)              (* queued for the handler *)
| ToFlow (eid : N) (p : list N)    (* written to the flow *)
| Overrun                          (* memcpy beyond frame->buf *)
| BadFd.                           (* assert in np1_flow_write (dev.c:1966) *)

(* main.c:426-498 udp_ipcp_packet_reader: recvfrom cuts the datagram *)
Definition reader (dgram : list N) : rx :=
  let b := firstn (N.to_nat MAX_PACKET) dgram in
  match get b 0 4 with
  | None => Dropped
  | Some h =>
      let eid := unbe h in
      let n := N.of_nat (length b) in
      if eid =? MGMT_EID
      then if n <? N.of_nat MSG then Dropped
           else if MGMT_BUF <? n then Overrun else ToMgmt b
      else if SYS_MAX_FLOWS <=? eid then BadFd else ToFlow eid (skipn 4 b)
  end.

(* main.c:114-117 struct uf *)
Record uf := Uf { d_eid : Z; peer : N }.
Definition table := N -> uf.
Definition upd (f : table) (fd : N) (x : uf) : table := fun k => if k =? fd then x else f k.

(** What the handler takes out of a frame. *)
Inductive msg :=
| Req (s_eid : N) (dst : list N) (qs : qosspec) (data : list N)
| Reply (s_eid d_eid : N) (response : Z) (data : list N)
| Unknown
| Short.      (* assert(len >= msg_len) *)

Definition g (buf : list N) (o n : nat) : N := match get buf o n with Some l => unbe l | None => 0 end.

Section Node.
Variable L : nat.   (* ipcp_dir_hash_len() *)

(* main.c:343-392 udp_ipcp_mgmt_frame; the reader has checked that the header
   is there, so [g] never leaves the buffer *)
Definition dec (b : list N) : msg :=
  let len := length b in
  let code := g b o_code 1 in
  if code =? FLOW_REQ then
    if Nat.ltb len (MSG + L) then Short
    else Req (g b o_s_eid 4) (firstn L (skipn MSG b))
             (QS (g b o_delay 4) (g b o_bandwidth 8) (g b o_availability 1) (g b o_loss 4) (g b o_ber 4)
                 (g b o_in_order 1) (g b o_max_gap 4) (g b o_cypher_s 2) (g b o_timeout 4))
             (skipn L (skipn MSG b))
  else if code =? FLOW_REPLY then
    if Nat.ltb len MSG then Short
    else Reply (g b o_s_eid 4) (g b o_d_eid 4) (of_i8 (g b o_response 1)) (skipn MSG b)
  else Unknown.

(* main.c:119-139 udp_data *)
Record st := St { tbl : table; frames : list (N * list N) }.

Inductive ev :=
| Alloc (fd : N) (to : N) (dst : list N) (qs : qosspec) (data j : list N)  (* flow_alloc up to the sendto *)
| Store (fd : N) (to : N)                                                  (* and the rest of it *)
| Recv (from : N) (dgram : list N)
| Handle (fd : option N)    (* the handler takes a frame; the descriptor the IRMd gives for a request *)
| Respond (fd : N) (response : Z) (data j : list N)
| Packet (fd : N) (p : list N)
| Dealloc (fd : N).

(** What the rest of the world sees. *)
Inductive out :=
| Sent (to : N) (dgram : list N)
| Delivered (fd : N) (p : list N)
| Asked (dst : list N) (qs : qosspec) (data : list N)    (* the IRMd, for a flow *)
| Answered (fd : N) (response : Z) (data : list N)       (* the IRMd, about an allocation *)
| Crashed.

Definition step (s : st) (e : ev) : st * list out :=
  match e with
  (* main.c:988-1024 udp_ipcp_flow_alloc, the request is sent first *)
  | Alloc fd to dst qs data j => (s, [Sent to (enc_req fd dst qs data j)])
  (* main.c:1026-1036 *)
  | Store fd to => (St (upd (tbl s) fd (Uf (-1) to)) (frames s), [])
  (* main.c:426-498; list_add puts the frame first (481) *)
  | Recv from dgram =>
      match reader dgram with
      | Dropped => (s, [])
      | ToMgmt b => (St (tbl s) ((from, b) :: frames s), [])
      | ToFlow eid p => (s, [Delivered eid p])
      | Overrun | BadFd => (s, [Crashed])
      end
  (* main.c:394-424 udp_ipcp_mgmt_handler, 283-308 udp_ipcp_port_req, 310-341
     udp_ipcp_port_alloc_reply *)
  | Handle fd =>
      match frames s with
      | [] => (s, [])
      | (from, b) :: fs =>
          match dec b with
          | Req s_eid dst qs data =>
              (match fd with
               | Some fd => St (upd (tbl s) fd (Uf (to_i32 s_eid) from)) fs
               | None => St (tbl s) fs
               end, [Asked dst qs data])
          | Reply s_eid d_eid response data =>
              if SYS_MAX_FLOWS <=? s_eid then (s, [Crashed])
              else if peer (tbl s s_eid) =? from
              then (St (if (response =? 0)%Z then upd (tbl s) s_eid (Uf (to_i32 d_eid) (peer (tbl s s_eid))) else tbl s) fs,
                    [Answered s_eid response data])
              else (St (tbl s) fs, [])
          | Unknown => (St (tbl s) fs, [])
          | Short => (s, [Crashed])
          end
      end
  (* main.c:1038-1066 udp_ipcp_flow_alloc_resp *)
  | Respond fd response data j =>
      (s, [Sent (peer (tbl s fd)) (enc_reply (to_u32 (d_eid (tbl s fd))) fd response data j)])
  | Packet fd p =>
      (s, match enc_data (d_eid (tbl s fd)) p with Some d => [Sent (peer (tbl s fd)) d] | None => [] end)
  (* main.c:1068-1084 udp_ipcp_flow_dealloc *)
  | Dealloc fd => (St (upd (tbl s) fd (Uf (-1) 0)) (frames s), [])
  end.

(* main.c:141-189 udp_data_init *)
Definition init : st := St (fun _ => Uf (-1) 0) [].

(** A history, latest event first: the state and everything that came out,
    oldest first. *)
Fixpoint run (h : list ev) : st * list out :=
  match h with
  | [] => (init, [])
  | e :: h => let (s, o) := run h in let (s', o') := step s e in (s', o ++ o')
  end.
End Node.
