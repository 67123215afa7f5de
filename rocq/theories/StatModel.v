(** The files of the RIB: what an IPCP says of itself (src/ipcpd/ipcp.c:108-212),
    the statistics of data transfer (src/ipcpd/unicast/dt.c:179-395) and of the
    flows (src/ipcpd/unicast/fa.c:128-293, ca.c:101-109, ca/mb-ecn.c:261-296), the
    link state database (src/ipcpd/unicast/routing/link-state.c:137-307) and the
    state of a flow with FRCT (src/lib/frct.c:103-212).

    IPCP_FLOW_STATS and PROC_FLOW_STATS are set.  Simplifications: malloc
    succeeds; the locks make every call one step; the text that localtime and
    strftime make of a time is a function [tm] of it; the lengths of the queues
    of a flow are given; counters are numbers below 2^64 where a theorem says
    so; entries are the components' entries, as rib.c passes them. *)
From Coq Require Import List Bool NArith ZArith String Ascii.
From Verif Require Import RibModel.
Import ListNotations.
Local Open Scope N_scope.

Definition s2l (s : string) : str := List.map N_of_ascii (list_ascii_of_string s).
Definition NL : N := 10.

(** * sprintf and atoi *)
(** "%zu", "%u" and PRIu64: decimal digits, at most 20 for 64 bits *)
Fixpoint digits (fuel : nat) (n : N) : str :=
  match fuel with
  | O => [48 + n mod 10]
  | S f => if n <? 10 then [48 + n] else digits f (n / 10) ++ [48 + n mod 10]
  end.
Definition dec (n : N) : str := digits 19 n.
(** "%ld" *)
Definition sdec (z : Z) : str := if (z <? 0)%Z then 45 :: dec (Z.to_N (- z)) else dec (Z.to_N z).
(** "%20s": blanks on the left up to the width, never cut *)
Definition pad (w : nat) (s : str) : str := List.repeat 32 (w - List.length s) ++ s.
(** one line of the formats: the label, the field, the end of the line *)
Definition line (label : string) (w : nat) (v : str) : str := s2l label ++ pad w v ++ [NL].

(** atoi: (int) strtol(s, NULL, 10) of the C library, on 64 bits *)
Definition isspace (c : N) : bool := (c =? 32) || ((9 <=? c) && (c <=? 13)).
Fixpoint skip (s : str) : str :=
  match s with [] => [] | c :: r => if isspace c then skip r else s end.
Fixpoint value (acc : Z) (s : str) : Z :=
  match s with
  | [] => acc
  | c :: r => if (48 <=? c) && (c <=? 57) then value (acc * 10 + Z.of_N (c - 48)) r else acc
  end.
Definition to_long (z : Z) : Z := Z.max (- 2 ^ 63) (Z.min (2 ^ 63 - 1) z).
Definition to_int (z : Z) : Z := ((z + 2 ^ 31) mod 2 ^ 32 - 2 ^ 31)%Z.
Definition atoi (s : str) : Z :=
  to_int (to_long (match skip s with
                   | 45 :: r => - value 0 r
                   | 43 :: r => value 0 r
                   | r => value 0 r
                   end)).

(** * ipcp.c: the directory "info" *)
(** ipcp.c:67-72: the entries *)
Definition INFO : list str := [s2l "_state"; s2l "_type"; s2l "_layer"].
(** include/ouroboros/ipcp.h:35-43 *)
Definition IPCP_INIT : N := 0.
Definition IPCP_OPERATIONAL : N := 2.
Definition IPCP_SHUTDOWN : N := 5.
Definition IPCP_NULL : N := 6.
(** ipcp.c:121-131 *)
Definition state_text (s : N) : str :=
  (if s =? IPCP_NULL then s2l "null"
   else if s =? IPCP_INIT then s2l "init"
   else if s =? IPCP_OPERATIONAL then s2l "operational"
   else if s =? IPCP_SHUTDOWN then s2l "shutdown"
   else s2l "bug") ++ [NL].
(** ipcp.c:135-148; include/ouroboros/ipcp.h:45-53 *)
Definition type_text (t : N) : str :=
  (if t =? 0 then s2l "local" else if t =? 1 then s2l "unicast"
   else if t =? 2 then s2l "broadcast" else if t =? 3 then s2l "eth-llc"
   else if t =? 4 then s2l "eth-dix" else if t =? 5 then s2l "udp" else s2l "bug") ++ [NL].
Definition LAYER_NAME_SIZE : nat := 255%nat.
Definition strret (t : str) : rd := Ret (Z.of_nat (List.length t)) t.
(** ipcp.c:108-162: ipcp_rib_read.  At 161 the buffer is as it was given if no
    entry matched: its bytes are read although nothing has been written.  For
    "_layer" 256 bytes are cleared; a name of 255 bytes leaves no NUL in them
    once the end of line is put after it. *)
Definition info_read (state typ : N) (layer : str) (path : str) (len : N) : rd :=
  if len <? N.of_nat LAYER_NAME_SIZE + 2 then Ret 0 []
  else match after path with
       | None => Crash                                        (* 117: NULL + 1 *)
       | Some e =>
           if streq e (s2l "_state") then strret (state_text state)
           else if streq e (s2l "_type") then strret (type_text typ)
           else if streq e (s2l "_layer") then
             let n := if state <? IPCP_OPERATIONAL then s2l "(null)" else layer in
             if (LAYER_NAME_SIZE <=? List.length n)%nat then Crash else strret (n ++ [NL])
           else Crash                                         (* 161 *)
       end.
(** ipcp.c:164-192 *)
Definition info_list : ld := Listed INFO.
(** ipcp.c:194-206 *)
Definition info_attr (state typ : N) (layer : str) (now : Z) (path : str) : at_ :=
  match info_read state typ layer path (N.of_nat LAYER_NAME_SIZE + 2) with
  | Ret r _ => Attr r now
  | Crash => ACrash
  end.

(** * dt.c: the directory "dt.ADDRESS" *)
(** dt.c:150-168: the counters of one QoS cube *)
Record cube := Cube {
  snd_pkt : N; snd_bytes : N; rcv_pkt : N; rcv_bytes : N;
  lcl_r_pkt : N; lcl_r_bytes : N; lcl_w_pkt : N; lcl_w_bytes : N;
  r_drp_pkt : N; r_drp_bytes : N; w_drp_pkt : N; w_drp_bytes : N;
  f_nhp_pkt : N; f_nhp_bytes : N }.
Record stat := Stat { stamp : Z; addr : N; cubes : nat -> cube }.
(** dt.stat, by descriptor; dt.n_flows *)
Record dts := Dts { d_stat : nat -> stat; d_n : Z }.
Definition PROG_MAX_FLOWS : nat := 4096%nat.
Definition PROG_RES_FDS : nat := 64%nat.
Definition QOS_CUBE_MAX : nat := 3%nat.
Definition RIB_FILE_STRLEN : nat := 2205%nat.    (* dt.c:61-62: 189 + 672 * 3 *)

(** dt.c:225-230 *)
Definition dt_head (tmstr addrstr : str) (rxq txq : N) : str :=
  line "Flow established at:      " 20 tmstr ++
  line "Endpoint address:         " 20 addrstr ++
  line "Queued packets (rx):      " 20 (dec rxq) ++
  line "Queued packets (tx):      " 20 (dec txq) ++ [NL].
(** dt.c:232-263 *)
Definition dt_block (i : nat) (c : cube) : str :=
  s2l "Qos cube " ++ pad 3 (dec (N.of_nat i)) ++ s2l ":" ++ [NL] ++
  line " sent (packets):          " 20 (dec (snd_pkt c)) ++
  line " sent (bytes):            " 20 (dec (snd_bytes c)) ++
  line " rcvd (packets):          " 20 (dec (rcv_pkt c)) ++
  line " rcvd (bytes):            " 20 (dec (rcv_bytes c)) ++
  line " local sent (packets):    " 20 (dec (lcl_w_pkt c)) ++
  line " local sent (bytes):      " 20 (dec (lcl_w_bytes c)) ++
  line " local rcvd (packets):    " 20 (dec (lcl_r_pkt c)) ++
  line " local rcvd (bytes):      " 20 (dec (lcl_r_bytes c)) ++
  line " dropped ttl (packets):   " 20 (dec (r_drp_pkt c)) ++
  line " dropped ttl (bytes):     " 20 (dec (r_drp_bytes c)) ++
  line " failed writes (packets): " 20 (dec (w_drp_pkt c)) ++
  line " failed writes (bytes):   " 20 (dec (w_drp_bytes c)) ++
  line " failed nhop (packets):   " 20 (dec (f_nhp_pkt c)) ++
  line " failed nhop (bytes):     " 20 (dec (f_nhp_bytes c)).

Definition inside (fd : Z) : bool := (0 <=? fd)%Z && (fd <? Z.of_nat PROG_MAX_FLOWS)%Z.

(** dt.c:179-276: dt_rib_read.  [me]: the address of the IPCP; [comps]: the names
    of the components (dt.comps has 64 of them).  dt.stat is used without a check
    of the descriptor; addrstr has room for 19 characters; the text with its NUL
    takes RIB_FILE_STRLEN + 1 bytes. *)
Definition dt_read (tm : Z -> str) (me : N) (comps : nat -> str) (rxq txq : nat -> N)
    (d : dts) (path : str) (len : N) : rd :=
  match after path with
  | None => Crash
  | Some e =>
      let fd := atoi e in
      if len <? N.of_nat RIB_FILE_STRLEN then Ret 0 []
      else if negb (inside fd) then Crash
      else
        let k := Z.to_nat fd in
        let s := d_stat d k in
        if (stamp s =? 0)%Z then Ret 0 []
        else if (addr s =? me) && (PROG_RES_FDS <=? k)%nat then Crash        (* dt.comps[fd] *)
        else
          let a := if addr s =? me then comps k else dec (addr s) in
          if (20 <=? List.length a)%nat then Crash
          else
            let rx := if (PROG_RES_FDS <=? k)%nat then rxq k else 0 in
            let tx := if (PROG_RES_FDS <=? k)%nat then txq k else 0 in
            let text := dt_head (tm (stamp s)) a rx tx ++
                        List.concat (List.map (fun i => dt_block i (cubes s i)) (List.seq 0 QOS_CUBE_MAX)) in
            if len <=? N.of_nat (List.length text) then Crash
            else Ret (Z.of_nat RIB_FILE_STRLEN) text
  end.

(** dt.c:278-334: dt_rib_readdir, with the jump of 304-305 and the increment of
    298; the assertion of 325 *)
Fixpoint dt_scan (fuel : nat) (used : nat -> bool) (i : nat) : list nat :=
  match fuel with
  | O => []
  | S f => if (PROG_MAX_FLOWS <=? i)%nat then []
           else if used i then i :: dt_scan f used (S i)
           else if (i <? PROG_RES_FDS)%nat then dt_scan f used (S PROG_RES_FDS)
           else dt_scan f used (S i)
  end.
Definition is_used (d : dts) (i : nat) : bool := negb (stamp (d_stat d i) =? 0)%Z.
Definition shown (l : list nat) : list str := List.map (fun i => dec (N.of_nat i)) l.
Definition dt_list (d : dts) : ld :=
  if (d_n d <? 1)%Z then Listed []
  else let l := dt_scan PROG_MAX_FLOWS (is_used d) 0 in
       if (Z.of_nat (List.length l) =? d_n d)%Z then Listed (shown l) else LCrash.
(** dt.c:336-364: dt_rib_getattr *)
Definition dt_attr (d : dts) (path : str) : at_ :=
  match after path with
  | None => ACrash
  | Some e =>
      let fd := atoi e in
      if negb (inside fd) then ACrash
      else let s := d_stat d (Z.to_nat fd) in
           if (stamp s =? -1)%Z then Attr 0 0 else Attr (Z.of_nat RIB_FILE_STRLEN) (stamp s)
  end.
(** dt.c:372-395: stat_used; the time is not 0.  An address of 0 is
    INVALID_ADDR: the descriptor is no longer used. *)
Definition no_cube : cube := Cube 0 0 0 0 0 0 0 0 0 0 0 0 0 0.
Definition stat_used (d : dts) (now : Z) (fd : nat) (a : N) : dts :=
  Dts (fun k => if Nat.eqb k fd then Stat (if a =? 0 then 0%Z else now) a (fun _ => no_cube) else d_stat d k)
      (if a =? 0 then (d_n d - 1)%Z else (d_n d + 1)%Z).
(** dt.c:638-648 *)
Definition dt_new : dts := Dts (fun _ => Stat 0 0 (fun _ => no_cube)) 0.

(** * fa.c: the directory "flow-allocator" *)
(** fa.c:92-110: struct fa_flow *)
Record faflow := FaFlow {
  f_stamp : Z; p_snd : N; p_snd_f : N; b_snd : N; b_snd_f : N;
  p_rcv : N; p_rcv_f : N; b_rcv : N; b_rcv_f : N; u_snd : N; u_rcv : N;
  s_eid : N; r_eid : N; r_addr : N }.
(** ca/mb-ecn.c: struct mb_ecn_ctx, as far as it is shown *)
Record mbctx := Mb { tx_ece : N; tx_ctr : N; rx_ece : N; rx_ctr : N; tx_mul : N;
                     tx_wpc : N; tx_wbc : N; tx_wbl : N; tx_cav : bool }.
(** ca/mb-ecn.c:261-296: mb_ecn_print_stats *)
Definition mb_text (c : mbctx) : str :=
  line "Congestion avoidance algorithm:  " 20 (s2l "Multi-bit ECN") ++
  line "Upstream congestion level:       " 20 (dec (tx_ece c)) ++
  line "Upstream packet counter:         " 20 (dec (tx_ctr c)) ++
  line "Downstream congestion level:     " 20 (dec (rx_ece c)) ++
  line "Downstream packet counter:       " 20 (dec (rx_ctr c)) ++
  line "Congestion window size (ns):     " 20 (dec (2 ^ tx_mul c mod 2 ^ 64)) ++
  line "Packets in this window:          " 20 (dec (tx_wpc c)) ++
  line "Bytes in this window:            " 20 (dec (tx_wbc c)) ++
  line "Max bytes in this window:        " 20 (dec (tx_wbl c)) ++
  line "Current congestion regime:       " 20
    (if negb (tx_cav c) then s2l "Slow start"
     else if negb (tx_ece c =? 0) then s2l "Multiplicative dec" else s2l "Additive inc").
(** fa.c:174-197 *)
Definition fa_text (tmstr : str) (f : faflow) (castr : str) : str :=
  line "Flow established at:             " 20 tmstr ++
  line "Remote address:                  " 20 (dec (r_addr f)) ++
  line "Local endpoint ID:               " 20 (dec (s_eid f)) ++
  line "Remote endpoint ID:              " 20 (dec (r_eid f)) ++
  line "Sent (packets):                  " 20 (dec (p_snd f)) ++
  line "Sent (bytes):                    " 20 (dec (b_snd f)) ++
  line "Send failed (packets):           " 20 (dec (p_snd_f f)) ++
  line "Send failed (bytes):             " 20 (dec (b_snd_f f)) ++
  line "Received (packets):              " 20 (dec (p_rcv f)) ++
  line "Received (bytes):                " 20 (dec (b_rcv f)) ++
  line "Receive failed (packets):        " 20 (dec (b_rcv_f f)) ++
  line "Receive failed (bytes):          " 20 (dec (b_rcv_f f)) ++
  line "Sent flow updates (packets):     " 20 (dec (u_snd f)) ++
  line "Received flow updates (packets): " 20 (dec (u_rcv f)) ++ castr.
(** fa.flows with its congestion contexts, fa.n_flows *)
Record fas := Fas { a_flow : nat -> faflow; a_ctx : nat -> mbctx; a_n : Z }.
(** fa.c:128-208: fa_rib_read.  [mb]: the congestion avoidance is multi-bit ECN;
    otherwise it is nop, which has no print_stats, and castr is read although
    nothing has been written (ca.c:105-106, fa.c:139, 172, 197). *)
Definition fa_read (tm : Z -> str) (mb : bool) (s : fas) (path : str) (len : N) : rd :=
  match after path with
  | None => Crash
  | Some e =>
      let fd := atoi e in
      if negb (inside fd) then Ret (-1) []
      else if len <? 1536 then Ret 0 []
      else
        let k := Z.to_nat fd in
        let f := a_flow s k in
        if (f_stamp f =? 0)%Z then Ret 0 []
        else if negb mb then Crash
        else let text := fa_text (tm (f_stamp f)) f (mb_text (a_ctx s k)) in
             if len <=? N.of_nat (List.length text) then Crash else strret text
  end.
(** fa.c:210-260: fa_rib_readdir *)
Definition fa_used (s : fas) (i : nat) : bool := negb (f_stamp (a_flow s i) =? 0)%Z.
Definition fa_list (s : fas) : ld :=
  if (a_n s <? 1)%Z then Listed []
  else let l := List.filter (fa_used s) (List.seq 0 PROG_MAX_FLOWS) in
       if (Z.of_nat (List.length l) =? a_n s)%Z then Listed (shown l) else LCrash.
(** fa.c:262-293: fa_rib_getattr *)
Definition fa_attr (s : fas) (path : str) : at_ :=
  match after path with
  | None => ACrash
  | Some e =>
      let fd := atoi e in
      if negb (inside fd) then ACrash
      else let f := a_flow s (Z.to_nat fd) in
           if (f_stamp f =? 0)%Z then Attr 0 0 else Attr 1536 (f_stamp f)
  end.

(** * link-state.c: the directory "lsdb" *)
Record adj := Adj { a_src : N; a_dst : N; a_seqno : N; a_stamp : Z }.
Record nb := Nb { n_dt : bool; n_addr : N }.
Record lsdb := Lsdb { db : list adj; nbs : list nb }.
Definition LS_ENTRY_SIZE : nat := 104%nat.   (* link-state.c:60 *)
(** link-state.c:174, 288 *)
Definition adj_name (a : adj) : str := dec (a_src a) ++ [DOT] ++ dec (a_dst a).
(** link-state.c:159-160 *)
Definition adj_text (tm : Z -> str) (a : adj) : str :=
  line "src: " 20 (dec (a_src a)) ++ line "dst: " 20 (dec (a_dst a)) ++
  line "seqno: " 18 (dec (a_seqno a)) ++ line "upd: " 20 (tm (a_stamp a)).
(** link-state.c:165-180: get_adj *)
Fixpoint get_adj (l : list adj) (e : str) : option adj :=
  match l with [] => None | a :: r => if streq (adj_name a) e then Some a else get_adj r e end.
(** link-state.c:137-163, 213-245: str_adj and lsdb_rib_read *)
Definition ls_read (tm : Z -> str) (d : lsdb) (path : str) (len : N) : rd :=
  match after path with
  | None => Crash
  | Some e =>
      if (List.length (db d) + List.length (nbs d) =? 0)%nat then Ret (-1) []
      else match get_adj (db d) e with
           | None => Ret (-1) []
           | Some a => if len <? N.of_nat LS_ENTRY_SIZE then Ret (-1) []
                       else if len <=? N.of_nat (List.length (adj_text tm a)) then Crash
                       else Ret (Z.of_nat LS_ENTRY_SIZE) (adj_text tm a)
           end
  end.
(** link-state.c:247-307: lsdb_rib_readdir *)
Definition nb_name (n : nb) : str := (if n_dt n then s2l "dt." else s2l "mgmt.") ++ dec (n_addr n).
Definition ls_list (d : lsdb) : ld := Listed (List.map nb_name (nbs d) ++ List.map adj_name (db d)).
(** link-state.c:182-211: lsdb_rib_getattr *)
Definition ls_attr (d : lsdb) (now : Z) (path : str) : at_ :=
  match after path with
  | None => ACrash
  | Some e => match get_adj (db d) e with
              | Some a => Attr (Z.of_nat LS_ENTRY_SIZE) (a_stamp a)
              | None => Attr 0 now
              end
  end.

(** * frct.c: the directory named after the descriptor of a flow *)
Record fr := Fr {
  fr_mpl : Z; fr_a : Z; fr_r : Z; fr_srtt : Z; fr_mdev : Z; fr_rto : Z;
  snd_lwe : N; snd_rwe : N; snd_idle : Z; snd_seqno : N;
  rcv_lwe : N; rcv_rwe : N; rcv_idle : Z; rcv_seqno : N;
  n_rtx : N; n_prb : N; n_rtt : N; n_dup : N; n_dak : N; n_rdv : N; n_out : N; n_rqo : N }.
(** frct.c:131-175 *)
Definition fr_text (f : fr) : str :=
  line "Maximum packet lifetime (ns):    " 20 (sdec (fr_mpl f)) ++
  line "Max time to Ack (ns):            " 20 (sdec (fr_a f)) ++
  line "Max time to Retransmit (ns):     " 20 (sdec (fr_r f)) ++
  line "Smoothed rtt (ns):               " 20 (sdec (fr_srtt f)) ++
  line "RTT standard deviation (ns):     " 20 (sdec (fr_mdev f)) ++
  line "Retransmit timeout RTO (ns):     " 20 (sdec (fr_rto f)) ++
  line "Sender left window edge:         " 20 (dec (snd_lwe f)) ++
  line "Sender right window edge:        " 20 (dec (snd_rwe f)) ++
  line "Sender inactive (ns):            " 20 (sdec (snd_idle f)) ++
  line "Sender current sequence number:  " 20 (dec (snd_seqno f)) ++
  line "Receiver left window edge:       " 20 (dec (rcv_lwe f)) ++
  line "Receiver right window edge:      " 20 (dec (rcv_rwe f)) ++
  line "Receiver inactive (ns):          " 20 (sdec (rcv_idle f)) ++
  line "Receiver last ack:               " 20 (dec (rcv_seqno f)) ++
  line "Number of pkt retransmissions:   " 20 (dec (n_rtx f)) ++
  line "Number of rtt probes:            " 20 (dec (n_prb f)) ++
  line "Number of rtt estimates:         " 20 (dec (n_rtt f)) ++
  line "Number of duplicates received:   " 20 (dec (n_dup f)) ++
  line "Number of delayed acks received: " 20 (dec (n_dak f)) ++
  line "Number of rendez-vous sent:      " 20 (dec (n_rdv f)) ++
  line "Number of packets out of window: " 20 (dec (n_out f)) ++
  line "Number of packets out of rqueue: " 20 (dec (n_rqo f)).
(** frct.c:103-182: frct_rib_read.  [flows]: ai.flows, None if the flow has no
    FRCT instance.  The length of the buffer is not looked at. *)
Definition frct_read (flows : nat -> option fr) (path : str) (len : N) : rd :=
  match after path with
  | None => Crash                                             (* 116: assert *)
  | Some _ =>
      let fd := atoi (before path) in
      if negb (inside fd) then Crash
      else match flows (Z.to_nat fd) with
           | None => Crash
           | Some f => if len <=? N.of_nat (List.length (fr_text f)) then Crash else strret (fr_text f)
           end
  end.
(** frct.c:184-200, 202-212 *)
Definition frct_list : ld := Listed [s2l "frct"].
Definition frct_attr (path : str) : at_ := Attr 1189 0.
