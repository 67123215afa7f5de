(** C32, C33, C53, C54: the data-transfer header, time to live, delivery and
    malformed packets. *)
From Coq Require Import List Arith NArith Bool Lia ZifyNat ZifyN ZifyBool.
From Verif Require Import Bytes DtModel DtSpec DtProofs.
Import ListNotations.
Open Scope N_scope.

(** C32.  Whatever memory the header is written over, it gets the documented
    wire format, the payload behind it is untouched, and reading it back gives
    every field, with the TTL one less. *)
Theorem dt_header_roundtrip : forall i junk payload dst q t_ign c e,
  (addr_size i <= 8)%nat -> length junk = head_size i ->
  dst < 256 ^ N.of_nat (addr_size i) -> q < 256 -> c < 256 -> e < 2 ^ 64 ->
  1 <= max_ttl i < 256 ->
  exists pkt, dt_pci_ser i (junk ++ payload) (mk_pci dst q t_ign c e) = Some pkt /\
    pkt = wire (addr_size i) dst q (max_ttl i) c e ++ payload /\
    dt_pci_des i pkt =
      Some (wire (addr_size i) dst q (max_ttl i - 1) c e ++ payload,
            mk_pci dst q (max_ttl i - 1) c e).
Proof.
  intros i junk payload dst q t c e Hs Hj Hd Hq Hc He Ht.
  eexists. rewrite ser_wire by auto. cbn [dst_addr DtModel.qc DtModel.ecn DtModel.eid].
  rewrite !N.mod_small by lia. split; [reflexivity|]. split; [reflexivity|].
  rewrite des_wire by auto.
  replace ((max_ttl i + 255) mod 256) with (max_ttl i - 1); [reflexivity|].
  replace (max_ttl i + 255) with (max_ttl i - 1 + 1 * 256) by lia.
  rewrite N.mod_add by discriminate. symmetry; apply N.mod_small; lia.
Qed.
Print Assumptions dt_header_roundtrip.

Definition ex_info : dt_info := mk_info 4 60.
Example dt_header_roundtrip_nonvacuous :
  dt_pci_ser ex_info (repeat 170 15 ++ [1; 2; 3]) (mk_pci 305419896 2 0 9 (2 ^ 40 + 77)) =
  Some ([120; 86; 52; 18; 2; 60; 9; 77; 0; 0; 0; 0; 1; 0; 0] ++ [1; 2; 3]).
Proof. vm_compute. reflexivity. Qed.

(** A packet handed to dt_write_packet and sent. *)
Lemma write_wire : forall i n dst cube e room junk payload fd pkt,
  (addr_size i <= 8)%nat -> length junk = room -> max_ttl i < 256 -> cube < 256 ->
  dt_write_packet i n dst cube e room junk payload = Some (WSent fd pkt) ->
  nhop n cube dst = Some fd /\ flow_up n fd = true /\
  pkt = wire (addr_size i) dst cube (max_ttl i) (calc_ecn n fd 0 mod 256) e ++ payload.
Proof.
  intros i n dst cube e room junk payload fd pkt Hs Hj Ht Hc E.
  unfold dt_write_packet in E.
  destruct (dst =? own_addr n); [discriminate|].
  destruct (nhop n cube dst) as [fd'|]; [|discriminate].
  destruct (Nat.ltb room (head_size i)) eqn:Er; [discriminate|].
  apply Nat.ltb_ge in Er.
  rewrite ser_wire in E by (auto; rewrite firstn_length; lia).
  cbn [bind dst_addr DtModel.qc DtModel.ecn DtModel.eid] in E.
  rewrite N.mod_mod in E by discriminate.
  rewrite (N.mod_small cube), (N.mod_small (max_ttl i)) in E by lia.
  destruct (flow_up n fd') eqn:Eu; [|discriminate].
  injection E as <- <-. auto.
Qed.

(** C33.  Over any sequence of nodes, with any addresses, any (changing)
    forwarding tables and any congestion policy, a packet sent with TTL t >= 1
    is forwarded fewer than t times. *)
Theorem dt_ttl_bound : forall i n dst cube e room junk payload fd pkt,
  (addr_size i <= 8)%nat -> length junk = room ->
  dst < 256 ^ N.of_nat (addr_size i) -> cube < 256 -> e < 2 ^ 64 ->
  1 <= max_ttl i < 256 ->
  dt_write_packet i n dst cube e room junk payload = Some (WSent fd pkt) ->
  forall hops, exists k r, travel i hops pkt = Some (k, r) /\ (k < N.to_nat (max_ttl i))%nat.
Proof.
  intros i n dst cube e room junk payload fd pkt Hs Hj Hd Hq He Ht E hops.
  destruct (write_wire _ _ _ _ _ _ _ _ _ _ Hs Hj ltac:(lia) Hq E) as (_ & _ & ->).
  destruct (travel_defined i Hs hops dst cube (max_ttl i) (calc_ecn n fd 0 mod 256) e payload Hd He)
    as (k & r & Er).
  exists k, r. split; [exact Er|].
  apply travel_wire in Er; auto. destruct Er as [Hk _].
  replace ((max_ttl i + 255) mod 256) with (max_ttl i - 1) in Hk; [lia|].
  replace (max_ttl i + 255) with (max_ttl i - 1 + 1 * 256) by lia.
  rewrite N.mod_add by discriminate. symmetry; apply N.mod_small; lia.
Qed.
Print Assumptions dt_ttl_bound.

(** Two nodes that bounce a packet for a third: TTL 3 allows two forwardings. *)
Definition bounce (a : N) : node :=
  mk_node a (fun _ _ => Some 70) (mb_ecn_calc_ecn (fun _ => 100)) (fun _ => true) (fun _ => false).
Example dt_ttl_bound_nonvacuous :
  match dt_write_packet (mk_info 4 3) (bounce 1) 9 0 99 256 (repeat 0 256) [5; 6] with
  | Some (WSent fd pkt) =>
      fd = 70 /\ travel (mk_info 4 3) [(bounce 2, 0); (bounce 1, 0); (bounce 2, 0); (bounce 1, 0)] pkt
      = Some (2%nat, Some (bounce 2, Dropped))
  | _ => False
  end.
Proof. vm_compute. split; reflexivity. Qed.

(** Without the bound on the configured TTL the claim is false: a TTL of 0
    wraps around and lets the packet be forwarded 255 times. *)
Theorem dt_ttl_zero_refuted :
  ~ (forall i n dst cube e room junk payload fd pkt,
     (addr_size i <= 8)%nat -> length junk = room ->
     dst < 256 ^ N.of_nat (addr_size i) -> cube < 256 -> e < 2 ^ 64 ->
     max_ttl i < 256 ->
     dt_write_packet i n dst cube e room junk payload = Some (WSent fd pkt) ->
     forall hops k r, travel i hops pkt = Some (k, r) -> (k <= N.to_nat (max_ttl i))%nat).
Proof.
  intros H.
  pose (pkt := wire 4 9 0 0 6 99 ++ []).
  specialize (H (mk_info 4 0) (bounce 1) 9 0 99 256%nat (repeat 0 256) [] 70 pkt).
  assert (E : match travel (mk_info 4 0) [(bounce 2, 0); (bounce 1, 0); (bounce 2, 0)] pkt with
              | Some (k, _) => k = 3%nat | None => False end) by (vm_compute; reflexivity).
  destruct (travel _ _ pkt) as [[k r]|] eqn:Et; [|exact E].
  assert (k <= N.to_nat (max_ttl (mk_info 4 0)))%nat as L.
  { refine (H _ _ _ _ _ _ _ _ _ _ Et); try (vm_compute; reflexivity).
    vm_compute. repeat constructor. }
  subst k. cbn [max_ttl] in L. lia.
Qed.
Print Assumptions dt_ttl_zero_refuted.

(** C53.  A packet is only ever delivered at a node that has the address it was
    sent to, to the endpoint it was sent to, with exactly the payload it was sent
    with, however many nodes forwarded it: below 64 to the registered component
    of that number, from 64 on to the flow allocator. *)
Theorem dt_delivery_exact : forall i n dst cube e room junk payload fd pkt hops k m v,
  (addr_size i <= 8)%nat -> length junk = room -> max_ttl i < 256 ->
  dst < 256 ^ N.of_nat (addr_size i) -> cube < 256 -> e < 2 ^ 64 ->
  dt_write_packet i n dst cube e room junk payload = Some (WSent fd pkt) ->
  travel i hops pkt = Some (k, Some (m, v)) ->
  v = Dropped \/
  own_addr m = dst /\
  ((64 <= e /\ exists c, v = ToFlow e c payload) \/
   (e < 64 /\ comp m e = true /\ v = ToComp e payload)).
Proof.
  intros i n dst cube e room junk payload fd pkt hops k m v Hs Hj Ht Hd Hq He E Er.
  destruct (write_wire _ _ _ _ _ _ _ _ _ _ Hs Hj Ht Hq E) as (_ & _ & ->).
  apply travel_wire in Er; auto. destruct Er as [_ Er].
  destruct v as [|? ?|e' c' pl'|e' pl']; [left; reflexivity|destruct Er| |]; right.
  - destruct Er as (Eo & -> & L & ->). split; [exact Eo|]. left. eauto.
  - destruct Er as (Eo & -> & L & C & ->). split; [exact Eo|]. right. auto.
Qed.
Print Assumptions dt_delivery_exact.

(** C53.  Congestion marks accumulate: a mark set by the sender or any node on
    the way is still set when the packet is delivered. *)
Theorem dt_marks_kept : forall i hops d q t c e payload k m e' c' pl,
  (addr_size i <= 8)%nat -> d < 256 ^ N.of_nat (addr_size i) -> e < 2 ^ 64 -> c < 256 ->
  Forall (fun h => (exists qd, calc_ecn (fst h) = mb_ecn_calc_ecn qd) \/
                   calc_ecn (fst h) = nop_calc_ecn) hops ->
  travel i hops (wire (addr_size i) d q t c e ++ payload) = Some (k, Some (m, ToFlow e' c' pl)) ->
  marks_kept c c'.
Proof.
  intros i hops d q t c e payload k m e' c' pl Hs Hd He Hc Hf E.
  eapply travel_marks; try exact E; auto.
  eapply Forall_impl; [|exact Hf]. cbv beta. intros h [[qd ->]| ->] fd x _.
  - apply mb_ecn_marks.
  - intros z Hz. exact Hz.
Qed.
Print Assumptions dt_marks_kept.

(** A packet over three nodes: two relays and the destination. *)
Definition relay (a q : N) : node :=
  mk_node a (fun _ _ => Some 70) (mb_ecn_calc_ecn (fun _ => q)) (fun _ => true) (fun _ => false).
Example dt_delivery_nonvacuous :
  match dt_write_packet ex_info (relay 1 16) 4 0 (2 ^ 33 + 70) 256 (repeat 7 256) [5; 6] with
  | Some (WSent fd pkt) =>
      travel ex_info [(relay 2 32, 0); (relay 3 0, 0); (relay 4 0, 0)] pkt
      = Some (2%nat, Some (relay 4 0, ToFlow (2 ^ 33 + 70) 3 [5; 6]))
  | _ => False
  end.
Proof. vm_compute. reflexivity. Qed.

(** C54.  "A packet too short to hold a header is dropped" is false: the handler
    never compares the packet's length with the header's and reads (and
    decrements a byte) beyond it, for every packet that is too short. *)
Theorem dt_short_packet_refuted :
  ~ (forall i n cube buf, (addr_size i <= 8)%nat -> (length buf < head_size i)%nat ->
     packet_handler i n cube buf = Some Dropped) /\
  (forall i n cube buf, (length buf < head_size i)%nat -> packet_handler i n cube buf = None).
Proof.
  assert (S : forall i n cube buf, (length buf < head_size i)%nat ->
                packet_handler i n cube buf = None).
  { intros i n cube buf H. unfold packet_handler, dt_pci_des.
    destruct (Nat.leb (addr_size i) 8); [|reflexivity].
    destruct (get buf (ttl_o i) TTL_LEN) as [t|]; [|reflexivity]. cbn [bind].
    destruct (put buf (ttl_o i) _) as [b|] eqn:Ep; [|reflexivity]. cbn [bind].
    destruct (get b 0 _); [|reflexivity]. cbn [bind].
    destruct (get b (qc_o i) _); [|reflexivity]. cbn [bind].
    destruct (get b (ttl_o i) _); [|reflexivity]. cbn [bind].
    destruct (get b (ecn_o i) _); [|reflexivity]. cbn [bind].
    destruct (get b (eid_o i) eid_size) eqn:Ee; [|reflexivity]. exfalso.
    apply get_some in Ee. destruct Ee as (a & c & -> & Ha & Hl).
    apply put_some in Ep. destruct Ep as (a' & b' & c' & -> & Ha' & Hb' & E').
    apply (f_equal (@length N)) in E'. rewrite !app_length in *. unfold head_size in H. lia. }
  split; [|exact S].
  intros H. specialize (H ex_info (bounce 1) 0 [] ltac:(cbn; lia) ltac:(cbn; lia)).
  rewrite S in H by (cbn; lia). discriminate.
Qed.
Print Assumptions dt_short_packet_refuted.
