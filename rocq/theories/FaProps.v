(** C31, C47, C55, C56: endpoint ids, flow-allocation messages, replies and the
    message queue of the flow allocator. *)
From Coq Require Import List Arith NArith ZArith Bool Lia ZifyNat ZifyN ZifyBool.
From Verif Require Import Bytes FaModel FaSpec FaProofs.
Import ListNotations.
Open Scope N_scope.

(** C31.  Over every history of set-ups, tear-downs, messages and data packets,
    each message and each packet is handed to the flow that owns its id, and to
    no other, and is rejected if there is none; and nothing crashes.  Missing
    from the full statement: messages that name endpoint 0 (see below); data
    packets never do. *)
Theorem fa_delivery_exact_partial : forall fa_eid ops,
  fa_eid < 64 -> Forall op_ok ops -> Forall (fun o => ~ names_zero o) ops ->
  exists f, run fa_eid flows0 ops = Some (f, spec_run [] ops).
Proof. intros. apply run_ok; auto. apply inv0. Qed.
Print Assumptions fa_delivery_exact_partial.

(** An id never has two owners. *)
Theorem fa_ids_unique : forall ops, Forall op_ok ops ->
  NoDup (map fst (fold_left (fun l o => fst (spec_step l o)) ops [])).
Proof.
  intros ops H. apply spec_unique; auto; [constructor|]. intros e fd [].
Qed.
Print Assumptions fa_ids_unique.

(** The flow whose peer is told about congestion is the one that received the
    packet, although the code passes the endpoint id for the descriptor. *)
Theorem fa_update_same_flow : forall f eid fd,
  eid_to_fd f eid = Some fd -> update_remote_fd eid = Z.of_N fd.
Proof.
  intros f eid fd H. apply eid_to_fd_some in H. destruct H as (Hm & L & _).
  unfold update_remote_fd. rewrite to_i32_small, Hm; [reflexivity|].
  rewrite Hm. change (2 ^ 31) with 2147483648. lia.
Qed.
Print Assumptions fa_update_same_flow.

Definition ex_ops : list op :=
  [Req 64 (Some 7) 900 3; Alloc 65 (Some 7) 4 true; Rcv (7 * 2 ^ 32 + 64) 0;
   Reply (7 * 2 ^ 32 + 65) 901 0; Rcv (7 * 2 ^ 32 + 65) 1; Rcv (7 * 2 ^ 32 + 66) 1;
   Dealloc 64 true; Rcv (7 * 2 ^ 32 + 64) 0; Req 64 (Some 8) 902 3; Rcv (7 * 2 ^ 32 + 64) 0;
   Rcv (8 * 2 ^ 32 + 64) 0; Reply (7 * 2 ^ 32 + 65) 0 (-1); Update (7 * 2 ^ 32 + 65) 4].
Example fa_delivery_nonvacuous :
  Forall op_ok ex_ops /\ Forall (fun o => ~ names_zero o) ex_ops /\
  spec_run [] ex_ops =
  [ONone; ONone; OFlow 64; OFlow 65; OFlow 65; ORejected; ONone; ORejected; ONone; ORejected;
   OFlow 64; OFlow 65; ORejected].
Proof.
  split; [|split; [|vm_compute; reflexivity]].
  - unfold ex_ops. repeat constructor; cbn; try lia; vm_compute; auto; discriminate.
  - unfold ex_ops. repeat constructor; cbn; try lia; intros H; vm_compute in H; discriminate.
Qed.

(** Endpoint 0 was never issued to a flow, but before any flow exists a flow
    update for it dereferences the absent context of flow 0, and a flow reply for
    it is applied to flow 0. *)
Theorem fa_eid_zero_refuted :
  ~ (forall fa_eid ops, fa_eid < 64 -> Forall op_ok ops ->
     exists f, run fa_eid flows0 ops = Some (f, spec_run [] ops)) /\
  run 1 flows0 [Update 0 5] = None /\
  (exists f, run 1 flows0 [Reply 0 77 0] = Some (f, [OFlow 0])).
Proof.
  assert (U : run 1 flows0 [Update 0 5] = None) by (vm_compute; reflexivity).
  split; [|split; [exact U|eexists; reflexivity]].
  intros H. destruct (H 1 [Update 0 5]) as [f E]; [lia| |].
  - repeat constructor.
  - rewrite U in E. discriminate.
Qed.
Print Assumptions fa_eid_zero_refuted.

(** C47.  A request that fits in the receiver's buffer is decoded to what was
    sent. *)
Theorem fa_req_roundtrip_partial : forall eid own qs dst data buf,
  qs_ok qs -> eid < 2 ^ 64 -> own < 2 ^ 64 ->
  enc_req eid own qs dst data = Some buf -> (60 + length dst + length data <= 2048)%nat ->
  dec (length dst) buf = Some (InReq dst qs data eid own).
Proof.
  intros eid own qs dst data buf Hq He Ho E L. eapply dec_req; eauto.
  destruct Hq as (_ & _ & Q3 & _ & _ & Q6 & _).
  rewrite enc_req_eq in E by auto. apply some_inj in E. subst buf.
  rewrite !app_length, hdr_length. unfold fa_msg_size, MSGBUFSZ. lia.
Qed.
Print Assumptions fa_req_roundtrip_partial.

Example fa_req_roundtrip_nonvacuous :
  let qs := mk_qs 100 1000000 3 5 6 1 70000 256 120000 in
  qs_ok qs /\
  match enc_req (7 * 2 ^ 32 + 65) 305419896 qs (repeat 9 32) [1; 2; 3] with
  | Some buf => length buf = 95%nat /\
      dec 32 buf = Some (InReq (repeat 9 32) qs [1; 2; 3] (7 * 2 ^ 32 + 65) 305419896)
  | None => False
  end.
Proof. split; [repeat split|]; vm_compute; auto. Qed.

(** A longer one is dropped: its data is not delivered. *)
Theorem fa_req_data_refuted :
  ~ (forall eid own qs dst data buf, qs_ok qs -> eid < 2 ^ 64 -> own < 2 ^ 64 ->
     enc_req eid own qs dst data = Some buf ->
     dec (length dst) buf = Some (InReq dst qs data eid own)) /\
  (forall eid own qs dst data buf, qs_ok qs ->
     enc_req eid own qs dst data = Some buf -> (2048 < 60 + length dst + length data)%nat ->
     dec (length dst) buf = Some InBad).
Proof.
  assert (B : forall eid own qs dst data buf, qs_ok qs ->
     enc_req eid own qs dst data = Some buf -> (2048 < 60 + length dst + length data)%nat ->
     dec (length dst) buf = Some InBad).
  { intros eid own qs dst data buf (_ & _ & Q3 & _ & _ & Q6 & _) E L.
    rewrite enc_req_eq in E by auto. apply some_inj in E. subst buf.
    unfold dec. replace (Nat.ltb MSGBUFSZ _) with true; [reflexivity|].
    symmetry. apply Nat.ltb_lt. rewrite !app_length, hdr_length. unfold fa_msg_size, MSGBUFSZ. lia. }
  split; [|exact B]. intros H.
  pose (qs := mk_qs 0 0 0 0 0 0 0 0 0). assert (Q : qs_ok qs) by (repeat split).
  specialize (H 0 0 qs [] (repeat 0 (Z.to_nat 2000)) _ Q eq_refl eq_refl
                (enc_req_eq 0 0 qs [] (repeat 0 (Z.to_nat 2000)) eq_refl eq_refl)).
  rewrite (B 0 0 qs [] (repeat 0 (Z.to_nat 2000)) _ Q (enc_req_eq 0 0 qs [] _ eq_refl eq_refl)) in H.
  - discriminate.
  - rewrite repeat_length. cbn [length]. lia.
Qed.
Print Assumptions fa_req_data_refuted.

(** A reply that fits is decoded to what was sent, if its response has eight
    bits. *)
Theorem fa_reply_roundtrip_partial : forall hl r s response data buf,
  r < 2 ^ 64 -> s < 2 ^ 64 -> (-128 <= response < 128)%Z ->
  enc_reply r s response data = Some buf -> (60 + length data <= 2048)%nat ->
  dec hl buf = Some (InReply r s response data).
Proof.
  intros hl r s response data buf Hr Hs Hp E L.
  rewrite <- (to_of_i8 response Hp) at 1. eapply dec_reply; eauto.
  rewrite enc_reply_eq in E. apply some_inj in E. subst buf.
  rewrite !app_length, hdr_length. unfold fa_msg_size, MSGBUFSZ. lia.
Qed.
Print Assumptions fa_reply_roundtrip_partial.

Example fa_reply_roundtrip_nonvacuous :
  match enc_reply (2 ^ 60 + 64) (2 ^ 50 + 70) (-1) [4; 5] with
  | Some buf => length buf = 62%nat /\
      dec 32 buf = Some (InReply (2 ^ 60 + 64) (2 ^ 50 + 70) (-1) [4; 5])
  | None => False
  end.
Proof. vm_compute. auto. Qed.

(** The negative response -ECRYPT (irmd/main.c:841, 866) is decoded as the
    positive 17, so the requesting side takes it for an accepted flow. *)
Definition ECRYPT : Z := 1007.       (* include/ouroboros/errno.h *)
Theorem fa_reply_response_refuted : forall hl r s, r < 2 ^ 64 -> s < 2 ^ 64 ->
  exists buf, enc_reply r s (- ECRYPT) [] = Some buf /\ dec hl buf = Some (InReply r s 17 []).
Proof.
  intros hl r s Hr Hs. eexists. split; [apply enc_reply_eq|].
  change 17%Z with (of_i8 (to_i8 (- ECRYPT))).
  eapply dec_reply; [exact Hr|exact Hs|apply enc_reply_eq|].
  rewrite app_length, hdr_length. unfold fa_msg_size, MSGBUFSZ. cbn [length]. lia.
Qed.
Print Assumptions fa_reply_response_refuted.

Theorem fa_update_roundtrip : forall hl r ece buf,
  r < 2 ^ 64 -> ece < 2 ^ 16 ->
  enc_update r ece = Some buf -> dec hl buf = Some (InUpdate r ece).
Proof. exact dec_update. Qed.
Print Assumptions fa_update_roundtrip.
Example fa_update_roundtrip_nonvacuous :
  match enc_update (2 ^ 60 + 64) 8191 with
  | Some buf => dec 32 buf = Some (InUpdate (2 ^ 60 + 64) 8191) | None => False end.
Proof. vm_compute. auto. Qed.

(** C55.  The reply to a request is accepted if it is handled after fa_alloc has
    entered the flow in its table ... *)
Theorem fa_reply_accepted_partial : forall fa_eid f fd r addr se,
  fd_ok fd -> r < 2 ^ 32 ->
  let '(f1, eid) := alloc_send fa_eid f fd (Some r) in
  exists f2, step fa_eid (alloc_commit f1 fd eid addr) (Reply eid se 0) = Some (f2, OFlow fd) /\
    r_eid (f2 fd) = se /\ r_addr (f2 fd) = addr.
Proof.
  intros fa_eid f fd r addr se Hf Hr. cbn [alloc_send].
  destruct (gen_eid_eq fa_eid r fd Hr Hf) as [-> M].
  assert (E : eid_to_fd (alloc_commit f fd (r * 2 ^ 32 + fd) addr) (r * 2 ^ 32 + fd) = Some fd).
  { apply eid_to_fd_some. split; [exact M|]. split; [unfold fd_ok in Hf; lia|].
    unfold alloc_commit. rewrite upd_same. reflexivity. }
  cbn [step]. rewrite E. cbv zeta. eexists. split; [reflexivity|].
  rewrite !upd_same. cbn [r_eid r_addr]. split; [reflexivity|].
  unfold alloc_commit. rewrite upd_same. reflexivity.
Qed.
Print Assumptions fa_reply_accepted_partial.
Example fa_reply_accepted_nonvacuous : fd_ok 64 /\ 99 < 2 ^ 32.
Proof. unfold fd_ok. vm_compute. repeat split; discriminate. Qed.

(** ... but the request is on the wire before that: a reply handled in between is
    rejected, for every request. *)
Theorem fa_early_reply_refuted :
  ~ (forall fa_eid ops f outs fd r se, fa_eid < 64 -> Forall op_ok ops -> fd_ok fd -> r < 2 ^ 32 ->
     run fa_eid flows0 ops = Some (f, outs) ->
     let '(f1, eid) := alloc_send fa_eid f fd (Some r) in
     exists f2, step fa_eid f1 (Reply eid se 0) = Some (f2, OFlow fd)) /\
  (forall fa_eid fd r se, fd_ok fd -> r < 2 ^ 32 ->
     let '(f1, eid) := alloc_send fa_eid flows0 fd (Some r) in
     step fa_eid f1 (Reply eid se 0) = Some (f1, ORejected)).
Proof.
  assert (R : forall fa_eid fd r se, fd_ok fd -> r < 2 ^ 32 ->
     let '(f1, eid) := alloc_send fa_eid flows0 fd (Some r) in
     step fa_eid f1 (Reply eid se 0) = Some (f1, ORejected)).
  { intros fa_eid fd r se Hf Hr. cbn [alloc_send].
    destruct (gen_eid_eq fa_eid r fd Hr Hf) as [-> M]. cbn [step].
    rewrite (lookup_ok flows0 [] _ inv0); [reflexivity|].
    unfold fd_ok in Hf. lia. }
  split; [|exact R]. intros H.
  assert (F : fd_ok 64) by (unfold fd_ok; lia).
  specialize (H 1 [] flows0 [] 64 5 9 ltac:(lia) (Forall_nil _) F ltac:(vm_compute; reflexivity) eq_refl).
  specialize (R 1 64 5 9 F ltac:(vm_compute; reflexivity)).
  cbn [alloc_send] in H, R. destruct H as [f2 H]. rewrite R in H. discriminate.
Qed.
Print Assumptions fa_early_reply_refuted.

(** C56.  Messages for the allocator are handled in the order they arrived. *)
Theorem fa_queue_fifo : forall q m,
  take [] = None /\
  (forall x r, take q = Some (x, r) -> take (post q m) = Some (x, post r m)) /\
  (q = [] -> take (post q m) = Some (m, [])) /\
  (q <> [] -> take q <> None).
Proof.
  intros q m. split; [reflexivity|]. split; [|split].
  - intros x r H. unfold take, post in *. cbn [rev].
    destruct (rev q) as [|y t]; [discriminate|]. cbn [app].
    injection H as -> <-. rewrite rev_app_distr. reflexivity.
  - intros ->. reflexivity.
  - intros Hq H. unfold take in H. destruct (rev q) eqn:E; [|discriminate].
    apply Hq. rewrite <- (rev_involutive q), E. reflexivity.
Qed.
Print Assumptions fa_queue_fifo.
Example fa_queue_nonvacuous :
  take (post (post (post [] [1]) [2]) [3]) = Some ([1], [[3]; [2]]).
Proof. reflexivity. Qed.

(** C56.  "Taking a message gives its packet back to the pool" is false for
    messages of invalid length. *)
Theorem fa_bad_message_leak_refuted :
  ~ (forall m, take_releases m = true) /\
  (forall m, (length m < 60 \/ 2048 < length m)%nat -> take_releases m = false).
Proof.
  assert (R : forall m, (length m < 60 \/ 2048 < length m)%nat -> take_releases m = false).
  { intros m H. unfold take_releases. apply negb_false_iff, orb_true_iff.
    unfold MSGBUFSZ, fa_msg_size. destruct H; [right|left]; apply Nat.ltb_lt; lia. }
  split; [|exact R]. intros H. specialize (H []). rewrite R in H; [discriminate|]. left. cbn. lia.
Qed.
Print Assumptions fa_bad_message_leak_refuted.
