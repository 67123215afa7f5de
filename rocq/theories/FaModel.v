(** Model of the flow allocator of the unicast IPCP, src/ipcpd/unicast/fa.c:
    its messages, its table of flows and the delivery of packets to flows. *)
From Coq Require Import List Arith NArith ZArith Bool.
From Verif Require Import Bytes.
Import ListNotations.
Open Scope N_scope.

Definition bind {A B} (o : option A) (f : A -> option B) : option B :=
  match o with Some x => f x | None => None end.

(** ** Messages *)

Definition MSGBUFSZ : nat := 2048.       (* fa.c:64 *)
Definition FLOW_REQ : N := 0.            (* fa.c:61-63 *)
Definition FLOW_REPLY : N := 1.
Definition FLOW_UPDATE : N := 2.

(** fa.c:68-85, struct fa_msg: packed, so the offsets are the sums of the
    sizes of the preceding members. *)
Definition o_s_addr : nat := 0.
Definition o_r_eid : nat := 8.
Definition o_s_eid : nat := 16.
Definition o_code : nat := 24.
Definition o_response : nat := 25.
Definition o_ece : nat := 26.
Definition o_delay : nat := 28.
Definition o_bandwidth : nat := 32.
Definition o_loss : nat := 40.
Definition o_ber : nat := 44.
Definition o_max_gap : nat := 48.
Definition o_timeout : nat := 52.
Definition o_cypher_s : nat := 56.
Definition o_availability : nat := 58.
Definition o_in_order : nat := 59.
Definition fa_msg_size : nat := 60.

(** include/ouroboros/qos.h, qosspec_t. *)
Record qosspec : Type := mk_qs {
  delay : N; bandwidth : N; availability : N; loss : N; ber : N; in_order : N;
  max_gap : N; cypher_s : N; timeout : N
}.

(** Conversion of an int to the int8_t member, as the byte stored, and back. *)
Definition to_i8 (z : Z) : N := Z.to_N (z mod 256).
Definition of_i8 (b : N) : Z := if b <? 128 then Z.of_N b else (Z.of_N b - 256)%Z.

(** Assigning members one after the other. *)
Fixpoint puts (buf : list N) (l : list (nat * list N)) : option (list N) :=
  match l with
  | [] => Some buf
  | (o, bs) :: t => bind (put buf o bs) (fun b => puts b t)
  end.

(** fa.c:739-790, fa_alloc, the message: a zeroed header, the members assigned,
    the hash of the name behind the header and the data behind the hash. *)
Definition enc_req (eid own : N) (qs : qosspec) (dst data : list N) : option (list N) :=
  bind (puts (repeat 0 fa_msg_size)
    [(o_code, le 1 FLOW_REQ); (o_s_eid, be 8 eid); (o_s_addr, be 8 own);
     (o_delay, be 4 (delay qs)); (o_bandwidth, be 8 (bandwidth qs));
     (o_availability, le 1 (availability qs)); (o_loss, be 4 (loss qs));
     (o_ber, be 4 (ber qs)); (o_in_order, le 1 (in_order qs));
     (o_max_gap, be 4 (max_gap qs)); (o_cypher_s, be 2 (cypher_s qs));
     (o_timeout, be 4 (timeout qs))]) (fun h => Some (h ++ dst ++ data)).

(** fa.c:802-838, fa_alloc_resp, the message. *)
Definition enc_reply (r_eid s_eid : N) (response : Z) (data : list N) : option (list N) :=
  bind (puts (repeat 0 fa_msg_size)
    [(o_code, le 1 FLOW_REPLY); (o_response, [to_i8 response]);
     (o_r_eid, be 8 r_eid); (o_s_eid, be 8 s_eid)]) (fun h => Some (h ++ data)).

(** fa.c:882-905, fa_update_remote, the message. *)
Definition enc_update (r_eid ece : N) : option (list N) :=
  puts (repeat 0 fa_msg_size)
    [(o_code, le 1 FLOW_UPDATE); (o_r_eid, be 8 r_eid); (o_ece, be 2 ece)].

(** What the handlers take out of a message. *)
Inductive fa_in : Type :=
| InReq (dst : list N) (qs : qosspec) (data : list N) (s_eid s_addr : N)
| InReply (r_eid s_eid : N) (response : Z) (data : list N)
| InUpdate (r_eid ece : N)
| InBad       (* dropped with a log message *).

Definition g (buf : list N) (o n : nat) : option N := option_map unbe (get buf o n).

(** fa.c:440-471 fa_wait_for_fa_msg, 473-506 fa_handle_flow_req, 522-545
    fa_handle_flow_reply, 564-590 fa_handle_flow_update and the switch
    594-626: [hash_len] is ipcp_dir_hash_len(). *)
Definition dec (hash_len : nat) (buf : list N) : option fa_in :=
  let len := length buf in
  if Nat.ltb MSGBUFSZ len || Nat.ltb len fa_msg_size then Some InBad
  else
    bind (g buf o_code 1) (fun code =>
    if code =? FLOW_REQ then
      if Nat.ltb len (fa_msg_size + hash_len) then Some InBad
      else
        bind (get buf fa_msg_size hash_len) (fun dst =>
        bind (get buf (fa_msg_size + hash_len) (len - (fa_msg_size + hash_len))) (fun data =>
        bind (g buf o_delay 4) (fun dl => bind (g buf o_bandwidth 8) (fun bw =>
        bind (g buf o_availability 1) (fun av => bind (g buf o_loss 4) (fun lo =>
        bind (g buf o_ber 4) (fun be_ => bind (g buf o_in_order 1) (fun io =>
        bind (g buf o_max_gap 4) (fun mg => bind (g buf o_cypher_s 2) (fun cy =>
        bind (g buf o_timeout 4) (fun ti => bind (g buf o_s_eid 8) (fun se =>
        bind (g buf o_s_addr 8) (fun sa =>
        Some (InReq dst (mk_qs dl bw av lo be_ io mg cy ti) data se sa))))))))))))))
    else if code =? FLOW_REPLY then
      bind (get buf fa_msg_size (len - fa_msg_size)) (fun data =>
      bind (g buf o_r_eid 8) (fun re => bind (g buf o_s_eid 8) (fun se =>
      bind (g buf o_response 1) (fun rs => Some (InReply re se (of_i8 rs) data)))))
    else if code =? FLOW_UPDATE then
      bind (g buf o_r_eid 8) (fun re => bind (g buf o_ece 2) (fun ece => Some (InUpdate re ece)))
    else Some InBad).

(** ** The table of flows *)

Definition PROG_MAX_FLOWS : Z := 4096.
Definition MINUS1 : N := 2 ^ 64 - 1.
Definition INVALID_ADDR : N := 0.

(** fa.c:93-111, struct fa_flow, without the statistics; [ctx] tells whether
    there is a congestion avoidance context. *)
Record fa_flow : Type := mk_flow { s_eid : N; r_eid : N; r_addr : N; ctx : bool }.
Definition flows := N -> fa_flow.
Definition upd (f : flows) (fd : N) (x : fa_flow) : flows :=
  fun k => if k =? fd then x else f k.

(** fa.c:113-129: the table has static storage, so it starts zeroed. *)
Definition flows0 : flows := fun _ => mk_flow 0 0 0 false.

(** fa.c:301-317, eid_to_fd: the conversion to int of the low 32 bits. *)
Definition to_i32 (x : N) : Z :=
  let y := x mod 2 ^ 32 in if y <? 2 ^ 31 then Z.of_N y else (Z.of_N y - 2 ^ 32)%Z.
Definition eid_to_fd (f : flows) (eid : N) : option N :=
  let fd := to_i32 eid in
  if ((fd <? 0)%Z || (PROG_MAX_FLOWS <=? fd)%Z) then None
  else if s_eid (f (Z.to_N fd)) =? eid then Some (Z.to_N fd) else None.

(** fa.c:319-329, gen_eid: [rnd] is the outcome of random_buffer, [fa_eid] the
    allocator's own endpoint. *)
Definition gen_eid (fa_eid : N) (rnd : option N) (fd : N) : N :=
  match rnd with None => fa_eid | Some r => (r * 2 ^ 32 + fd) mod 2 ^ 64 end.

(** fa.c:373-396 fa_flow_init and 398-411 fa_flow_fini.  Simplification:
    ca_ctx_create succeeds. *)
Definition flow_init (f : flows) (fd : N) : flows := upd f fd (mk_flow MINUS1 MINUS1 INVALID_ADDR true).
Definition flow_fini (f : flows) (fd : N) : flows := upd f fd (mk_flow MINUS1 MINUS1 INVALID_ADDR false).

(** fa.c:739-800, fa_alloc, in its two observable parts: sending the request,
    which leaves the table alone and puts the id on the wire (fa.c:765-789), and
    then entering the flow in the table (fa.c:791-797). *)
Definition alloc_send (fa_eid : N) (f : flows) (fd : N) (rnd : option N) : flows * N :=
  (f, gen_eid fa_eid rnd fd).
Definition alloc_commit (f : flows) (fd eid addr : N) : flows :=
  let f1 := flow_init f fd in
  let x := f1 fd in upd f1 fd (mk_flow eid (r_eid x) addr (ctx x)).

(** The operations on the table; the descriptors are the ones the IRMd and the
    library gave to the flow. *)
Inductive op : Type :=
| Alloc (fd : N) (rnd : option N) (addr : N) (sent : bool)   (* fa_alloc *)
| Req (fd : N) (rnd : option N) (se sa : N)                  (* fa_handle_flow_req *)
| Reply (re se : N) (response : Z)                           (* fa_handle_flow_reply *)
| Update (re ece : N)                                        (* fa_handle_flow_update *)
| Resp (fd : N) (response : Z) (waited sent : bool)          (* fa_alloc_resp *)
| Dealloc (fd : N) (fini : bool)                             (* fa_dealloc *)
| Rcv (eid ecn : N).                                         (* fa_np1_rcv *)

(** What the operation did: nothing visible, rejected an unknown endpoint, or
    acted on the flow [fd]. *)
Inductive outcome : Type := ONone | ORejected | OFlow (fd : N).

(** One operation; [None] is a NULL dereference of the context. *)
Definition step (fa_eid : N) (f : flows) (o : op) : option (flows * outcome) :=
  match o with
  | Alloc fd rnd addr sent =>                       (* fa.c:739-800 *)
      if sent then
        let '(f1, eid) := alloc_send fa_eid f fd rnd in
        Some (alloc_commit f1 fd eid addr, ONone)
      else Some (f, ONone)
  | Req fd rnd se sa =>                             (* fa.c:502-519 *)
      let f1 := flow_init f fd in
      Some (upd f1 fd (mk_flow (gen_eid fa_eid rnd fd) se sa (ctx (f1 fd))), ONone)
  | Reply re se response =>                         (* fa.c:522-562 *)
      match eid_to_fd f re with
      | None => Some (f, ORejected)
      | Some fd =>
          let x := f fd in
          let f1 := upd f fd (mk_flow (s_eid x) se (r_addr x) (ctx x)) in
          if (response <? 0)%Z then Some (flow_fini f1 fd, OFlow fd) else Some (f1, OFlow fd)
      end
  | Update re ece =>                                (* fa.c:564-592 *)
      match eid_to_fd f re with
      | None => Some (f, ORejected)
      | Some fd => if ctx (f fd) then Some (f, OFlow fd) else None
      end
  | Resp fd response waited sent =>                 (* fa.c:802-862 *)
      if negb waited then Some (f, ONone)
      else if negb sent then Some (flow_fini f fd, ONone)
      else if (response <? 0)%Z then Some (flow_fini f fd, ONone) else Some (f, ONone)
  | Dealloc fd fini =>                              (* fa.c:864-880 *)
      if fini then Some (flow_fini f fd, ONone) else Some (f, ONone)
  | Rcv eid ecn =>                                  (* fa.c:924-975 *)
      match eid_to_fd f eid with
      | None => Some (f, ORejected)
      | Some fd => if ctx (f fd) then Some (f, OFlow fd) else None
      end
  end.

Fixpoint run (fa_eid : N) (f : flows) (ops : list op) : option (flows * list outcome) :=
  match ops with
  | [] => Some (f, [])
  | o :: t => bind (step fa_eid f o) (fun '(f1, r) =>
              bind (run fa_eid f1 t) (fun '(f2, rs) => Some (f2, r :: rs)))
  end.

(** fa.c:412-471: the queue of messages for the allocator.  fa_post_packet adds
    at the head of the list, fa_wait_for_fa_msg takes the last entry. *)
Definition post (q : list (list N)) (m : list N) : list (list N) := m :: q.
Definition take (q : list (list N)) : option (list N * list (list N)) :=
  match rev q with [] => None | x :: r => Some (x, rev r) end.
(** fa.c:456-471: whether taking the message [m] releases its packet back to the
    pool; for a message of invalid length only the queue entry is freed. *)
Definition take_releases (m : list N) : bool :=
  negb (Nat.ltb MSGBUFSZ (length m) || Nat.ltb (length m) fa_msg_size).

(** fa.c:971-972 calls fa_update_remote(eid, ece), whose first parameter is an
    int: the flow whose remote is updated. *)
Definition update_remote_fd (eid : N) : Z := to_i32 eid.
