(** Model of the data-transfer component of the unicast IPCP,
    src/ipcpd/unicast/dt.c: its header, its packet handler and
    dt_write_packet. *)
From Coq Require Import List Arith NArith Bool.
From Verif Require Import Bytes.
Import ListNotations.
Open Scope N_scope.

Definition PROG_RES_FDS : N := 64.       (* src/lib/config.h.in *)
Definition QOS_LEN : nat := 1.           (* dt.c:77 *)
Definition TTL_LEN : nat := 1.           (* dt.c:76 *)
Definition ECN_LEN : nat := 1.           (* dt.c:78 *)

(** dt.c:80-86, struct dt_pci. *)
Record dt_pci : Type := mk_pci { dst_addr : N; qc : N; ttl : N; ecn : N; eid : N }.

(** dt.c:88-102, dt_pci_info, as far as it is configuration; the offsets are
    the ones dt_init computes. *)
Record dt_info : Type := mk_info { addr_size : nat; max_ttl : N }.
(** dt.c:582-595: dt_init.  The eid size is forced to 8. *)
Definition eid_size : nat := 8.
Definition qc_o (i : dt_info) : nat := addr_size i.
Definition ttl_o (i : dt_info) : nat := qc_o i + QOS_LEN.
Definition ecn_o (i : dt_info) : nat := ttl_o i + TTL_LEN.
Definition eid_o (i : dt_info) : nat := ecn_o i + ECN_LEN.
Definition head_size (i : dt_info) : nat := eid_o i + eid_size.

Definition bind {A B} (o : option A) (f : A -> option B) : option B :=
  match o with Some x => f x | None => None end.

(** memcpy of [n] bytes from a 64-bit field: reading more than 8 bytes leaves
    the field (undefined behaviour, [None]). *)
Definition from64 (n : nat) (v : N) : option (list N) :=
  if Nat.leb n 8 then Some (le n v) else None.

(** dt.c:104-119, dt_pci_ser: the header is written over [buf], which starts at
    head.  The ttl written is max_ttl, whatever the structure holds. *)
Definition dt_pci_ser (i : dt_info) (buf : list N) (p : dt_pci) : option (list N) :=
  bind (from64 (addr_size i) (dst_addr p)) (fun a =>
  bind (put buf 0 a) (fun b1 =>
  bind (put b1 (qc_o i) (le QOS_LEN (qc p))) (fun b2 =>
  bind (put b2 (ttl_o i) (le TTL_LEN (max_ttl i))) (fun b3 =>
  bind (put b3 (ecn_o i) (le ECN_LEN (ecn p))) (fun b4 =>
  bind (from64 eid_size (eid p)) (fun e =>
  put b4 (eid_o i) e)))))).

(** dt.c:121-136, dt_pci_des, into a zeroed structure (dt.c:452): the ttl byte
    is decremented in the packet first (uint8_t, so it wraps), then the fields
    are copied out. *)
Definition dt_pci_des (i : dt_info) (buf : list N) : option (list N * dt_pci) :=
  if Nat.leb (addr_size i) 8 then
    bind (get buf (ttl_o i) TTL_LEN) (fun t =>
    bind (put buf (ttl_o i) [(unle t + 255) mod 256]) (fun b =>
    bind (get b 0 (addr_size i)) (fun a =>
    bind (get b (qc_o i) QOS_LEN) (fun q =>
    bind (get b (ttl_o i) TTL_LEN) (fun t' =>
    bind (get b (ecn_o i) ECN_LEN) (fun c =>
    bind (get b (eid_o i) eid_size) (fun e =>
    Some (b, mk_pci (unle a) (unle q) (unle t') (unle c) (unle e)))))))))
  else None.

(** What a node does with a packet depends on its address (ipcpi.dt_addr), its
    forwarding functions (pff_nhop, per class; [None] is a negative result),
    the outcome of its congestion calculation for an outgoing flow
    (ca_calc_ecn: dt.c:493, 826 and ca.c:93-99) given the old mark, whether
    writing to that flow succeeds, and which components are registered. *)
Record node : Type := mk_node {
  own_addr : N;
  nhop : N -> N -> option N;
  calc_ecn : N -> N -> N;
  flow_up : N -> bool;
  comp : N -> bool
}.

(** ca/mb-ecn.c:244-259, mb_ecn_calc_ecn: [queued] is ipcp_flow_queued of the
    outgoing flow, and the mark a uint8_t. *)
Definition ECN_Q_SHFT : N := 4.          (* mb-ecn.c:49 *)
Definition mb_ecn_calc_ecn (queued : N -> N) (fd e : N) : N :=
  N.lor e ((queued fd / 2 ^ ECN_Q_SHFT) mod 256).
(** ca/nop.c: nop_calc_ecn leaves the mark alone. *)
Definition nop_calc_ecn (fd e : N) : N := e.

Inductive verdict : Type :=
| Dropped
| Forwarded (fd : N) (pkt : list N)       (* handed to ipcp_flow_write *)
| ToFlow (eid ecn : N) (pkt : list N)     (* fa_np1_rcv *)
| ToComp (eid : N) (pkt : list N).        (* comps[eid].post_packet *)

(** dt.c:430-545, packet_handler, on the packet [buf] received on a flow of
    class [cube]; without the statistics. *)
Definition packet_handler (i : dt_info) (n : node) (cube : N) (buf : list N)
  : option verdict :=
  bind (dt_pci_des i buf) (fun '(b, p) =>
  if negb (dst_addr p =? own_addr n) then
    if ttl p =? 0 then Some Dropped
    else match nhop n cube (dst_addr p) with
         | None => Some Dropped
         | Some ofd =>
             bind (get b (ecn_o i) ECN_LEN) (fun c =>
             bind (put b (ecn_o i) (le 1 (calc_ecn n ofd (unle c)))) (fun b' =>
             if flow_up n ofd then Some (Forwarded ofd b') else Some Dropped))
         end
  else
    (* dt_pci_shrink, dt.c:138-143 *)
    bind (get b (head_size i) (length b - head_size i)) (fun pl =>
    if PROG_RES_FDS <=? eid p then
      bind (get b (ecn_o i) ECN_LEN) (fun c => Some (ToFlow (eid p) (unle c) pl))
    else if comp n (eid p) then Some (ToComp (eid p) pl) else Some Dropped)).

Inductive wres : Type :=
| WSent (fd : N) (pkt : list N)
| WNoRoute      (* -EPERM *)
| WFail.        (* -1 *)

(** dt.c:777-870, dt_write_packet: [room] is the head space of the packet and
    [junk] what it holds (shm_du_buff_head_alloc, see DuBuffModel); [None] is
    the failed assert on the destination. *)
Definition dt_write_packet (i : dt_info) (n : node) (dst cube e : N)
  (room : nat) (junk payload : list N) : option wres :=
  if dst =? own_addr n then None
  else match nhop n cube dst with
       | None => Some WNoRoute
       | Some fd =>
           if Nat.ltb room (head_size i) then Some WFail
           else
             bind (dt_pci_ser i (firstn (head_size i) junk ++ payload)
                     (mk_pci dst cube 0 (calc_ecn n fd 0 mod 256) e)) (fun b =>
             if flow_up n fd then Some (WSent fd b) else Some WFail)
       end.

(** A packet's way through the network: [hops] are the successive nodes it
    reaches, each in the state it has at that moment, with the class of the flow
    it arrives on.  The result is the number of times it was forwarded and what
    finally happened to it ([None] if it is still on its way when [hops] is
    exhausted). *)
Fixpoint travel (i : dt_info) (hops : list (node * N)) (buf : list N)
  : option (nat * option (node * verdict)) :=
  match hops with
  | [] => Some (0%nat, None)
  | (n, cube) :: t =>
      bind (packet_handler i n cube buf) (fun v =>
      match v with
      | Forwarded _ b => bind (travel i t b) (fun '(k, r) => Some (S k, r))
      | _ => Some (0%nat, Some (n, v))
      end)
  end.
