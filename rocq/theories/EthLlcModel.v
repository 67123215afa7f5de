(** Model of the IPCP over Ethernet with an LLC header, src/ipcpd/eth/eth.c
    built with BUILD_ETH_LLC, Linux raw sockets: service access points (SAPs),
    frames, and flow allocation.  What is common with the DIX variant and not
    repeated here (queries for names, the release of a management frame's
    buffer before it is copied) is in EthDixModel.

    Not modelled: memory exhaustion, failures of sendto, the netlink monitor,
    start-up, netmap and BPF.  A hardware address is a number. *)
From Coq Require Import List Arith NArith ZArith Bool.
From Verif Require Import Bytes.
From Verif Require UdpModel ShimModel.
Import ListNotations.
Open Scope N_scope.

Notation qosspec := UdpModel.qosspec.
Notation QS := UdpModel.QS.
Notation g := UdpModel.g.
Notation to_i8 := UdpModel.to_i8.
Notation of_i8 := UdpModel.of_i8.

Definition FLOW_REQ : N := 0.                (* eth.c:143-144 *)
Definition FLOW_REPLY : N := 1.
Definition MGMT_SAP : N := 1.                (* eth.c:131 *)
Definition MAX_SAPS : N := 64.               (* eth.c:134 *)
Definition MGMT_FRAME_SIZE : N := 2048.      (* eth.c:141 *)
Definition HEADER : nat := 17.               (* eth.c:117, 133 ETH_HEADER_TOT_SIZE *)
Definition DU_BUFF_OVERHEAD : N := 288.      (* shm_rdrbuff.c:46 *)

(** The configuration of a node: hardware address and MTU. *)
Record cfg := Cfg { me : N; mtu : N }.

(* eth.c:150-175 struct mgmt_msg: packed; the offsets *)
Definition o_ssap : nat := 0.
Definition o_dsap : nat := 1.
Definition o_code : nat := 2.
Definition o_availability : nat := 3.
Definition o_loss : nat := 4.
Definition o_bandwidth : nat := 8.
Definition o_ber : nat := 16.
Definition o_max_gap : nat := 20.
Definition o_delay : nat := 24.
Definition o_timeout : nat := 28.
Definition o_cypher_s : nat := 32.
Definition o_in_order : nat := 34.
Definition o_response : nat := 35.
Definition MSG : nat := 36.

(* eth.c:362-369 *)
Definition reverse_bits (b : N) : N :=
  let b := N.lor (N.shiftr (N.land b 240) 4) (N.shiftl (N.land b 15) 4) in
  let b := N.lor (N.shiftr (N.land b 204) 2) (N.shiftl (N.land b 51) 2) in
  N.lor (N.shiftr (N.land b 170) 1) (N.shiftl (N.land b 85) 1).

(* eth.c:177-191 struct eth_frame, 373-456 eth_ipcp_send_frame: the frame, if
   one is sent; dsap and ssap as they are on the wire *)
Definition send (c : cfg) (dst dsap ssap : N) (p : list N) : option (list N) :=
  let len := N.of_nat (length p) in
  if mtu c - 3 <? len then None
  else Some (be 6 dst ++ be 6 (me c) ++ be 2 (3 + len) ++ [dsap; ssap; 3] ++ p).
Definition send_mgmt (c : cfg) (dst : N) (p : list N) : option (list N) :=
  send c dst (reverse_bits MGMT_SAP) (reverse_bits MGMT_SAP) p.

(* eth.c:458-512 eth_ipcp_alloc: the message; [j]: dsap and response, which are
   not set *)
Definition enc_req (ssap : N) (hash : list N) (q : qosspec) (data j : list N) : list N :=
  le 1 ssap ++ firstn 1 j ++ le 1 FLOW_REQ ++ le 1 (UdpModel.availability q) ++ be 4 (UdpModel.loss q) ++
  be 8 (UdpModel.bandwidth q) ++ be 4 (UdpModel.ber q) ++ be 4 (UdpModel.max_gap q) ++ be 4 (UdpModel.delay q) ++
  be 4 (UdpModel.timeout q) ++ be 2 (UdpModel.cypher_s q) ++ le 1 (UdpModel.in_order q) ++ skipn 1 j ++ hash ++ data.

(* eth.c:514-562 eth_ipcp_alloc_resp: the message; [j]: the 32 bytes of QoS *)
Definition enc_reply (ssap dsap : N) (response : Z) (data j : list N) : list N :=
  le 1 ssap ++ le 1 dsap ++ le 1 FLOW_REPLY ++ j ++ [to_i8 response] ++ data.

(* eth.c:193-201 struct ef: int8_t members *)
Record ef := Ef { sap : Z; r_sap : Z; r_addr : N }.

(* eth.c:210-250 eth_data.  [used]: the identifiers taken from the bitmap of
   SAPs (BitmapModel); [to_fd]: ef_to_fd, 64 entries. *)
Record st := St {
  used : list N;
  to_fd : N -> Z;
  tbl : N -> ef;
  names : ShimModel.shim;
  frames : list (N * list N * nat)
}.
Definition set_used (s : st) (u : list N) : st := St u (to_fd s) (tbl s) (names s) (frames s).
Definition set_fd (s : st) (x : N) (fd : Z) : st :=
  St (used s) (fun k => if k =? x then fd else to_fd s k) (tbl s) (names s) (frames s).
Definition set_ef (s : st) (fd : N) (x : ef) : st :=
  St (used s) (to_fd s) (fun k => if k =? fd then x else tbl s k) (names s) (frames s).

(* bitmap.c:41-66, 141-154 with bmp_create(MAX_SAPS, 2) (eth.c:272): the lowest
   free identifier of 2 ... 65 *)
Definition free_from (u : list N) : list N :=
  filter (fun x => negb (existsb (N.eqb x) u)) (map N.of_nat (seq 2 64)).
Definition alloc_sap (s : st) : option N := hd_error (free_from (used s)).
(* bitmap.c:184-195 bmp_release: other identifiers are ignored *)
Definition release (s : st) (id : Z) : st :=
  if ((id <? 2) || (66 <? id))%Z then s
  else set_used s (filter (fun x => negb (x =? Z.to_N id)) (used s)).

(** What the reader does with a frame. *)
Inductive rx :=
| Dropped
| ToMgmt (src : N) (buf : list N) (len : nat)
| ToFlow (fd : Z) (p : list N)
| Overrun.     (* a read outside ef_to_fd, memcpy beyond frame->buf, or a failed assertion *)

(* eth.c:825-997 eth_ipcp_packet_reader; [stale] is the memory after the
   received bytes, [junk] what malloc left in the rest of the frame *)
Definition reader (c : cfg) (s : st) (f stale junk : list N) : rx :=
  let b := firstn (N.to_nat (mtu c) + HEADER) f in
  match b with
  | [] => Dropped
  | _ =>
      let mem := b ++ stale in
      let wire := g mem 12 2 in
      if 1535 <? wire then Dropped
      else
        let len := (wire + 65536 - 3) mod 65536 in            (* uint16_t, 929 *)
        let dsap := reverse_bits (g mem 14 1) in
        let ssap := reverse_bits (g mem 15 1) in
        let payload := firstn (N.to_nat len) (skipn HEADER mem) in
        if (ssap =? MGMT_SAP) && (dsap =? MGMT_SAP) then
          if MGMT_FRAME_SIZE <? len then Overrun
          else ToMgmt (g mem 6 6) (payload ++ junk) (N.to_nat len)
        else if MAX_SAPS <=? dsap then Overrun                (* ef_to_fd[dsap], 958 *)
        else
          let fd := to_fd s dsap in
          if (fd <? 0)%Z then Dropped
          else
            let e := tbl s (Z.to_N fd) in
            if negb (r_sap e =? Z.of_N ssap)%Z || negb (r_addr e =? g mem 6 6) then Dropped
            else if mtu c + DU_BUFF_OVERHEAD <? len then Overrun  (* assert, shm_rdrbuff.c:594 *)
            else ToFlow fd payload
  end.

Inductive ev :=
| Reg (h : list N) | Unreg (h : list N)
| Learn (h : list N) (a : N)      (* the answer to a query for a name *)
| Alloc (fd : N) (h : list N) (q : qosspec) (data j : list N)
| Recv (f stale junk : list N)
| Handle (fd : option N)          (* the descriptor the IRMd gives for a request *)
| Respond (fd : N) (response : Z) (data j : list N)
| Packet (fd : N) (p : list N)
| Dealloc (fd : N).

(** What the rest of the world sees. *)
Inductive out :=
| Sent (f : list N)
| Delivered (fd : N) (p : list N)
| Asked (h : list N) (q : qosspec) (data : list N)
| Answered (fd : N) (response : Z) (data : list N)
| Failed
| Crashed.

Definition shim_do (s : st) (o : ShimModel.op) : st :=
  St (used s) (to_fd s) (tbl s) (fst (ShimModel.step (names s) o)) (frames s).
Definition u8 (z : Z) : N := Z.to_N (z mod 256).
Definition i8 (n : N) : Z := of_i8 (n mod 256).

Section Node.
Variable L : nat.   (* ipcp_dir_hash_len() *)
Variable c : cfg.

(* eth.c:708-780 eth_ipcp_mgmt_frame, without the queries for names *)
Definition mgmt (s : st) (src : N) (buf : list N) (len : nat) (fd : option N) : st * list out :=
  let code := g buf o_code 1 in
  let hash := firstn L (skipn MSG buf) in
  if code =? FLOW_REQ then
    if Nat.ltb len (MSG + L) then (s, [Crashed])                                (* assert, 723 *)
    else if ShimModel.find_reg (ShimModel.registry (names s)) hash then
      (* 564-598 eth_ipcp_req *)
      (match fd with
       | Some fd => set_ef s fd (Ef (sap (tbl s fd)) (i8 (g buf o_ssap 1)) src)
       | None => s
       end,
       [Asked hash (QS (g buf o_delay 4) (g buf o_bandwidth 8) (g buf o_availability 1) (g buf o_loss 4)
                       (g buf o_ber 4) (g buf o_in_order 1) (g buf o_max_gap 4) (g buf o_cypher_s 2)
                       (g buf o_timeout 4))
              (firstn (len - (MSG + L)) (skipn (MSG + L) buf))])
    else (s, [])
  else if code =? FLOW_REPLY then
    if Nat.ltb len MSG then (s, [Crashed])                                      (* assert, 752 *)
    else
      (* 600-654 eth_ipcp_alloc_reply *)
      let dsap := g buf o_dsap 1 in
      let response := of_i8 (g buf o_response 1) in
      if MAX_SAPS <=? dsap then (s, [Crashed])                                  (* ef_to_fd[dsap], 620 *)
      else
        let fd := to_fd s dsap in
        if (fd <? 0)%Z then (s, [])
        else
          let k := Z.to_N fd in
          (if (response =? 0)%Z then set_ef s k (Ef (sap (tbl s k)) (i8 (g buf o_ssap 1)) src)
           else release s (sap (tbl s k)),                                      (* 630 *)
           [Answered k response (firstn (len - MSG) (skipn MSG buf))])
  else (s, []).

Definition step (s : st) (e : ev) : st * list out :=
  match e with
  | Reg h => (shim_do s (ShimModel.RegAdd h), [])                               (* eth.c:1520-1536 *)
  | Unreg h => (shim_do s (ShimModel.RegDel h), [])
  | Learn h a => (shim_do s (ShimModel.DirAdd h a), [])                         (* eth.c:694-706 *)
  (* eth.c:1593-1654 eth_ipcp_flow_alloc *)
  | Alloc fd h q data j =>
      match ShimModel.find_any (ShimModel.directory (names s)) h with
      | None => (s, [Failed])
      | Some a =>
          match alloc_sap s with
          | None => (s, [Failed])
          | Some x =>
              if MAX_SAPS <=? x then (s, [Crashed])                             (* ef_to_fd[ssap], 1623 *)
              else
                let s1 := set_fd (set_ef (set_used s (x :: used s)) fd (Ef (Z.of_N x) (r_sap (tbl s fd)) (r_addr (tbl s fd)))) x (Z.of_N fd) in
                match send_mgmt c a (enc_req x h q data j) with
                | Some f => (s1, [Sent f])
                | None =>                                                       (* 1638-1645 *)
                    (set_fd (set_ef (release s1 (Z.of_N x)) fd (Ef (-1) (r_sap (tbl s fd)) (r_addr (tbl s fd)))) x (-1), [Failed])
                end
          end
      end
  | Recv f stale junk =>
      match reader c s f stale junk with
      | Dropped => (s, [])
      | ToMgmt src buf len => (St (used s) (to_fd s) (tbl s) (names s) ((src, buf, len) :: frames s), [])
      | ToFlow fd p => (s, [Delivered (Z.to_N fd) p])
      | Overrun => (s, [Crashed])
      end
  (* eth.c:782-823 eth_ipcp_mgmt_handler *)
  | Handle fd =>
      match frames s with
      | [] => (s, [])
      | (src, buf, len) :: fs => mgmt (St (used s) (to_fd s) (tbl s) (names s) fs) src buf len fd
      end
  (* eth.c:1656-1714 eth_ipcp_flow_alloc_resp *)
  | Respond fd response data j =>
      match alloc_sap s with
      | None => (s, [Failed])
      | Some x =>
          if MAX_SAPS <=? x then (s, [Crashed])                                 (* ef_to_fd[ssap], 1686 *)
          else
            let e := tbl s fd in
            let s1 := set_fd (set_ef (set_used s (x :: used s)) fd (Ef (Z.of_N x) (r_sap e) (r_addr e))) x (Z.of_N fd) in
            match send_mgmt c (r_addr e) (enc_reply x (u8 (r_sap e)) response data j) with
            | Some f => (s1, [Sent f])
            | None => (release s1 (Z.of_N x), [Failed])                         (* 1701-1703 *)
            end
      end
  (* eth.c:1004-1078 eth_ipcp_packet_writer *)
  | Packet fd p =>
      (s, match send c (r_addr (tbl s fd)) (reverse_bits (u8 (r_sap (tbl s fd)))) (reverse_bits (u8 (sap (tbl s fd)))) p with
          | Some f => [Sent f] | None => [Failed] end)
  (* eth.c:1716-1743 eth_ipcp_flow_dealloc; sap is a uint8_t *)
  | Dealloc fd =>
      let x := u8 (sap (tbl s fd)) in
      if MAX_SAPS <=? x then (s, [Crashed])                                     (* ef_to_fd[sap], 1734 *)
      else (set_fd (set_ef (release s (Z.of_N x)) fd (Ef (-1) (-1) 0)) x (-1), [])
  end.

(* eth.c:252-338 eth_data_init *)
Definition init : st := St [] (fun _ => (-1)%Z) (fun _ => Ef (-1) (-1) 0) ShimModel.shim_create [].

(** A history, latest event first: the state and everything that came out,
    oldest first. *)
Fixpoint run (h : list ev) : st * list out :=
  match h with
  | [] => (init, [])
  | e :: h => let (s, o) := run h in let (s', o') := step s e in (s', o ++ o')
  end.
End Node.
