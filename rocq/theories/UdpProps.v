(** Theorems about the IPCP over UDP (C93, C94). *)
From Coq Require Import List Arith NArith ZArith Bool Lia ZifyBool ZifyNat ZifyN.
From Verif Require Import Bytes UdpModel UdpSpec.
Import ListNotations.
Open Scope N_scope.

(** ** Fields of a concatenation *)
Lemma get_here : forall a b n, length a = n -> get (a ++ b) 0 n = Some a.
Proof. intros a b n H. apply (get_app [] a b n H). Qed.
Lemma get_skip : forall a b k n, (length a <= k)%nat -> get (a ++ b) k n = get b (k - length a) n.
Proof.
  intros a b k n H. unfold get. rewrite app_length.
  replace (Nat.leb (k + n) (length a + length b)) with (Nat.leb (k - length a + n) (length b))
    by (destruct (Nat.leb_spec (k + n) (length a + length b)), (Nat.leb_spec (k - length a + n) (length b)); try reflexivity; lia).
  rewrite skipn_app, (skipn_all2 a) by exact H. reflexivity.
Qed.
Lemma g_here : forall a b n, length a = n -> g (a ++ b) 0 n = unbe a.
Proof. intros a b n H. unfold g. rewrite get_here by exact H. reflexivity. Qed.
Lemma g_skip : forall a b k n, (length a <= k)%nat -> g (a ++ b) k n = g b (k - length a) n.
Proof. intros a b k n H. unfold g. rewrite get_skip by exact H. reflexivity. Qed.
Lemma unbe_le1 : forall v, v < 256 -> unbe (le 1 v) = v.
Proof. intros v H. unfold unbe. cbn [le rev app unle]. rewrite N.mod_small by exact H. lia. Qed.
Lemma skipn_app_len : forall (a b : list N) n, length a = n -> skipn n (a ++ b) = b.
Proof. intros a b n <-. rewrite skipn_app, skipn_all, Nat.sub_diag. reflexivity. Qed.
Lemma firstn_app_len : forall (a b : list N) n, length a = n -> firstn n (a ++ b) = a.
Proof. intros a b n <-. rewrite firstn_app, firstn_all, Nat.sub_diag. cbn [firstn]. apply app_nil_r. Qed.
Lemma firstn_short : forall (l : list N) n, (length l <= n)%nat -> firstn n l = l.
Proof. intros l n H. apply firstn_all2. exact H. Qed.

Ltac lens := rewrite ?app_length, ?be_length, ?le_length; cbn [length]; lia.
Ltac field := unfold o_s_eid, o_d_eid, o_code, o_response, o_availability, o_in_order, o_bandwidth, o_delay, o_loss, o_ber,
    o_max_gap, o_timeout, o_cypher_s;
  repeat (rewrite g_skip by lens);
  match goal with |- g (_ ++ _) ?o _ = _ => replace o with 0%nat by lens end; rewrite g_here by lens.

Lemma to_of_i8 : forall z, (-128 <= z < 128)%Z -> of_i8 (to_i8 z) = z.
Proof.
  intros z H. unfold of_i8, to_i8.
  pose proof (Z.mod_pos_bound z 256 ltac:(lia)) as B.
  destruct (Z.ltb_spec z 0) as [N|N].
  - assert (E : (z mod 256 = z + 256)%Z) by (symmetry; apply Z.mod_unique with (q := (-1)%Z); lia).
    rewrite E. destruct (N.ltb_spec (Z.to_N (z + 256)) 128); lia.
  - assert (E : (z mod 256 = z)%Z) by (apply Z.mod_small; lia).
    rewrite E. destruct (N.ltb_spec (Z.to_N z) 128); lia.
Qed.
Lemma to_i32_small : forall x, x < 2 ^ 31 -> to_i32 x = Z.of_N x.
Proof.
  intros x H. unfold to_i32. rewrite N.mod_small by (change (2 ^ 32) with 4294967296; change (2 ^ 31) with 2147483648 in H; lia).
  destruct (N.ltb_spec x (2 ^ 31)); [reflexivity|lia].
Qed.
Lemma to_u32_of_N : forall x, x < 2 ^ 32 -> to_u32 (Z.of_N x) = x.
Proof.
  intros x H. unfold to_u32. rewrite Z.mod_small; [apply N2Z.id|]. change (2 ^ 32) with 4294967296 in H. change (2 ^ 32)%Z with 4294967296%Z. lia.
Qed.

(** ** Messages arrive as they were sent *)
Section L.
Variable L : nat.

Lemma reader_req : forall s_eid dst qs data j, length dst = L -> length j = 5%nat ->
  46 + N.of_nat (L + length data) <= 2048 -> reader (enc_req s_eid dst qs data j) = ToMgmt (enc_req s_eid dst qs data j).
Proof.
  intros s_eid dst qs data j D J S. unfold reader.
  assert (LN : length (enc_req s_eid dst qs data j) = (46 + L + length data)%nat).
  { unfold enc_req. rewrite !app_length, !be_length, !le_length, firstn_length, skipn_length, D, J. cbn. lia. }
  rewrite firstn_short by (rewrite LN; unfold MAX_PACKET; lia). rewrite LN. unfold enc_req at 1. rewrite get_here by apply be_length.
  rewrite unbe_be by reflexivity. change (MGMT_EID =? MGMT_EID) with true. cbv iota.
  destruct (N.ltb_spec (N.of_nat (46 + L + length data)) (N.of_nat MSG)) as [X|X]; [unfold MSG in X; lia|].
  destruct (N.ltb_spec MGMT_BUF (N.of_nat (46 + L + length data))) as [Y|Y]; [unfold MGMT_BUF in Y; lia|reflexivity].
Qed.

Lemma dec_req : forall s_eid dst qs data j, length dst = L -> length j = 5%nat -> s_eid < 2 ^ 32 -> qos_ok qs ->
  dec L (enc_req s_eid dst qs data j) = Req s_eid dst qs data.
Proof.
  intros s_eid dst qs data j D J S (Q1 & Q2 & Q3 & Q4 & Q5 & Q6 & Q7 & Q8 & Q9). unfold dec.
  assert (LN : length (enc_req s_eid dst qs data j) = (46 + L + length data)%nat).
  { unfold enc_req. rewrite !app_length, !be_length, !le_length, firstn_length, skipn_length, D, J. cbn. lia. }
  rewrite LN. unfold enc_req.
  assert (A : length (firstn 4 j) = 4%nat) by (rewrite firstn_length, J; reflexivity).
  assert (B : length (skipn 4 j) = 1%nat) by (rewrite skipn_length, J; reflexivity).
  revert A B. generalize (firstn 4 j) as a, (skipn 4 j) as b. intros a b A B.
  assert (SK : forall x, skipn MSG (be 4 MGMT_EID ++ be 4 s_eid ++ a ++ le 1 FLOW_REQ ++ b ++
    le 1 (availability qs) ++ le 1 (in_order qs) ++ be 8 (bandwidth qs) ++ be 4 (delay qs) ++
    be 4 (loss qs) ++ be 4 (ber qs) ++ be 4 (max_gap qs) ++ be 4 (timeout qs) ++ be 2 (cypher_s qs) ++ x) = x).
  { intros x. rewrite !app_assoc. apply skipn_app_len. rewrite !app_length, !be_length, !le_length, A, B. reflexivity. }
  rewrite SK.
  set (m := be 4 MGMT_EID ++ be 4 s_eid ++ a ++ le 1 FLOW_REQ ++ b ++
    le 1 (availability qs) ++ le 1 (in_order qs) ++ be 8 (bandwidth qs) ++ be 4 (delay qs) ++
    be 4 (loss qs) ++ be 4 (ber qs) ++ be 4 (max_gap qs) ++ be 4 (timeout qs) ++ be 2 (cypher_s qs) ++ dst ++ data).
  assert (G0 : g m o_code 1 = FLOW_REQ) by (unfold m; field; apply unbe_le1; reflexivity).
  assert (G1 : g m o_s_eid 4 = s_eid) by (unfold m; field; apply unbe_be; exact S).
  assert (G2 : g m o_delay 4 = delay qs) by (unfold m; field; apply unbe_be; exact Q1).
  assert (G3 : g m o_bandwidth 8 = bandwidth qs) by (unfold m; field; apply unbe_be; exact Q2).
  assert (G4 : g m o_availability 1 = availability qs) by (unfold m; field; apply unbe_le1; exact Q3).
  assert (G5 : g m o_loss 4 = loss qs) by (unfold m; field; apply unbe_be; exact Q4).
  assert (G6 : g m o_ber 4 = ber qs) by (unfold m; field; apply unbe_be; exact Q5).
  assert (G7 : g m o_in_order 1 = in_order qs) by (unfold m; field; apply unbe_le1; exact Q6).
  assert (G8 : g m o_max_gap 4 = max_gap qs) by (unfold m; field; apply unbe_be; exact Q7).
  assert (G9 : g m o_cypher_s 2 = cypher_s qs) by (unfold m; field; apply unbe_be; exact Q8).
  assert (G10 : g m o_timeout 4 = timeout qs) by (unfold m; field; apply unbe_be; exact Q9).
  clearbody m. rewrite G0, G1, G2, G3, G4, G5, G6, G7, G8, G9, G10.
  change (FLOW_REQ =? FLOW_REQ) with true. cbv iota.
  destruct (Nat.ltb_spec (46 + L + length data) (MSG + L)) as [X|X]; [unfold MSG in X; lia|].
  rewrite firstn_app_len, skipn_app_len by exact D. destruct qs; reflexivity.
Qed.

Lemma reader_reply : forall s_eid d_eid r data j, length j = 32%nat -> 46 + N.of_nat (length data) <= 2048 ->
  reader (enc_reply s_eid d_eid r data j) = ToMgmt (enc_reply s_eid d_eid r data j).
Proof.
  intros s_eid d_eid r data j J S. unfold reader.
  assert (LN : length (enc_reply s_eid d_eid r data j) = (46 + length data)%nat).
  { unfold enc_reply. rewrite !app_length, !be_length, !le_length, J. cbn. lia. }
  rewrite firstn_short by (rewrite LN; unfold MAX_PACKET; lia). rewrite LN. unfold enc_reply at 1. rewrite get_here by apply be_length.
  rewrite unbe_be by reflexivity. change (MGMT_EID =? MGMT_EID) with true. cbv iota.
  destruct (N.ltb_spec (N.of_nat (46 + length data)) (N.of_nat MSG)) as [X|X]; [unfold MSG in X; lia|].
  destruct (N.ltb_spec MGMT_BUF (N.of_nat (46 + length data))) as [Y|Y]; [unfold MGMT_BUF in Y; lia|reflexivity].
Qed.
Lemma dec_reply : forall s_eid d_eid r data j, length j = 32%nat -> s_eid < 2 ^ 32 -> d_eid < 2 ^ 32 -> (-128 <= r < 128)%Z ->
  dec L (enc_reply s_eid d_eid r data j) = Reply s_eid d_eid r data.
Proof.
  intros s_eid d_eid r data j J S D R. unfold dec.
  assert (LN : length (enc_reply s_eid d_eid r data j) = (46 + length data)%nat).
  { unfold enc_reply. rewrite !app_length, !be_length, !le_length, J. cbn. lia. }
  rewrite LN. assert (SK : skipn MSG (enc_reply s_eid d_eid r data j) = data).
  { unfold enc_reply. rewrite !app_assoc. apply skipn_app_len. rewrite !app_length, !be_length, !le_length, J. reflexivity. }
  rewrite SK. set (m := enc_reply s_eid d_eid r data j).
  assert (G0 : g m o_code 1 = FLOW_REPLY) by (unfold m, enc_reply; field; apply unbe_le1; reflexivity).
  assert (G1 : g m o_s_eid 4 = s_eid) by (unfold m, enc_reply; field; apply unbe_be; exact S).
  assert (G2 : g m o_d_eid 4 = d_eid) by (unfold m, enc_reply; field; apply unbe_be; exact D).
  assert (G3 : g m o_response 1 = to_i8 r).
  { unfold m, enc_reply. field. unfold unbe. cbn [rev app unle]. lia. }
  clearbody m. rewrite G0, G1, G2, G3, (to_of_i8 r R). reflexivity.
Qed.

Lemma enc_data_len : forall e p, N.of_nat (length p) <= 8980 -> enc_data e p = Some (be 4 (to_u32 e) ++ p).
Proof.
  intros e p H. unfold enc_data. rewrite N.mod_small by lia.
  destruct (N.ltb_spec MAX_PACKET (N.of_nat (length p))) as [X|X]; [unfold MAX_PACKET in X; lia|].
  rewrite Nat2N.id, firstn_all. reflexivity.
Qed.
Lemma reader_data : forall e p, 0 < e < 10240 ->
  reader (be 4 e ++ p) = ToFlow e (firstn (N.to_nat 8976) p).
Proof.
  intros e p H. unfold reader. change MAX_PACKET with 8980. replace (N.to_nat 8980) with (4 + N.to_nat 8976)%nat by lia.
  assert (F : firstn (4 + N.to_nat 8976) (be 4 e ++ p) = be 4 e ++ firstn (N.to_nat 8976) p).
  { rewrite firstn_app, be_length. rewrite (firstn_short (be 4 e)) by (rewrite be_length; lia). f_equal; f_equal; lia. }
  rewrite F, get_here by apply be_length. rewrite unbe_be by (change (256 ^ N.of_nat 4) with 4294967296; lia).
  destruct (N.eqb_spec e MGMT_EID) as [X|X]; [unfold MGMT_EID in X; lia|].
  destruct (N.leb_spec SYS_MAX_FLOWS e) as [Y|Y]; [unfold SYS_MAX_FLOWS in Y; lia|].
  rewrite skipn_app_len by apply be_length. reflexivity.
Qed.

Lemma upd_same : forall f k x, upd f k x k = x.
Proof. intros f k x. unfold upd. rewrite N.eqb_refl. reflexivity. Qed.

(** *** The life of a flow between two nodes *)

(** Node A (address a) asks for a flow to a name at node B (address b), B's
    IRMd is asked for it as it was requested and accepts it, A's IRMd gets the
    answer; then every packet of up to 8976 bytes that is written on one end is
    delivered on the other, and on no other flow.  Whatever the two nodes did
    before. *)
Theorem udp_flow_works_partial : forall a b sA sB fa fb dst qs data j r data' j',
  fd_ok fa -> fd_ok fb -> length dst = L -> qos_ok qs ->
  46 + N.of_nat (L + length data) <= 2048 -> 46 + N.of_nat (length data') <= 2048 ->
  length j = 5%nat -> length j' = 32%nat -> (-128 <= r < 128)%Z ->
  frames sA = [] -> frames sB = [] ->
  exists d1 d2 sA1 sA2 sA3 sB1 sB2,
    (* A asks *)
    step L sA (Alloc fa b dst qs data j) = (sA, [Sent b d1]) /\
    step L sA (Store fa b) = (sA1, []) /\
    (* B gets the request and answers *)
    step L sB (Recv a d1) = (sB1, []) /\
    step L sB1 (Handle (Some fb)) = (sB2, [Asked dst qs data]) /\
    step L sB2 (Respond fb r data' j') = (sB2, [Sent a d2]) /\
    (* A gets the answer *)
    step L sA1 (Recv b d2) = (sA2, []) /\
    step L sA2 (Handle None) = (sA3, [Answered fa r data']) /\
    (* packets *)
    forall p, size p <= 8976 ->
      (r = 0%Z -> exists d, step L sA3 (Packet fa p) = (sA3, [Sent b d]) /\
                            step L sB2 (Recv a d) = (sB2, [Delivered fb p])) /\
      (exists d, step L sB2 (Packet fb p) = (sB2, [Sent a d]) /\
                 step L sA3 (Recv b d) = (sA3, [Delivered fa p])).
Proof.
  intros a b sA sB fa fb dst qs data j r data' j' FA FB D Q S1 S2 J J' R EA EB. unfold fd_ok in *.
  assert (P31 : 2 ^ 31 = 2147483648) by reflexivity. assert (P32 : 2 ^ 32 = 4294967296) by reflexivity.
  exists (enc_req fa dst qs data j), (enc_reply fa fb r data' j').
  exists (St (upd (tbl sA) fa (Uf (-1) b)) (frames sA)).
  exists (St (upd (tbl sA) fa (Uf (-1) b)) [(b, enc_reply fa fb r data' j')]).
  exists (St (if (r =? 0)%Z then upd (upd (tbl sA) fa (Uf (-1) b)) fa (Uf (Z.of_N fb) b) else upd (tbl sA) fa (Uf (-1) b)) []).
  exists (St (tbl sB) [(a, enc_req fa dst qs data j)]).
  exists (St (upd (tbl sB) fb (Uf (Z.of_N fa) a)) []).
  split; [reflexivity|]. split; [reflexivity|].
  split; [cbn [step]; rewrite reader_req by assumption; rewrite EB; reflexivity|].
  split; [cbn [step frames tbl]; rewrite dec_req by (try assumption; lia); rewrite to_i32_small by lia; reflexivity|].
  split; [cbn [step frames tbl]; rewrite upd_same; cbn [peer d_eid]; rewrite to_u32_of_N by lia; reflexivity|].
  split; [cbn [step frames tbl]; rewrite reader_reply by assumption; rewrite EA; reflexivity|].
  split.
  { cbn [step frames tbl]. rewrite dec_reply by (try assumption; lia).
    destruct (N.leb_spec SYS_MAX_FLOWS fa) as [X|X]; [unfold SYS_MAX_FLOWS in X; lia|].
    rewrite upd_same. cbn [peer]. rewrite N.eqb_refl, to_i32_small by lia. reflexivity. }
  intros p P. unfold size in P. split.
  - intros R0. exists (be 4 fb ++ p). rewrite R0. change (0 =? 0)%Z with true. cbv iota. split.
    + cbn [step frames tbl]. rewrite upd_same. cbn [peer d_eid]. rewrite enc_data_len by lia. rewrite to_u32_of_N by lia. reflexivity.
    + cbn [step frames tbl]. rewrite reader_data by lia. rewrite firstn_short by lia. reflexivity.
  - exists (be 4 fa ++ p). split.
    + cbn [step frames tbl]. rewrite upd_same. cbn [peer d_eid]. rewrite enc_data_len by lia. rewrite to_u32_of_N by lia. reflexivity.
    + cbn [step frames tbl]. rewrite reader_data by lia. rewrite firstn_short by lia. reflexivity.
Qed.

(** The packets of 8977 to 8980 bytes that the writer accepts arrive without
    their end. *)
Theorem udp_long_packet_cut : forall sA sB a fa fb b p, tbl sA fa = Uf (Z.of_N fb) b -> fd_ok fb ->
  8976 < size p <= 8980 ->
  exists d, step L sA (Packet fa p) = (sA, [Sent b d]) /\
            step L sB (Recv a d) = (sB, [Delivered fb (firstn (N.to_nat 8976) p)]).
Proof.
  intros sA sB a fa fb b p T FB P. unfold size, fd_ok in *. exists (be 4 fb ++ p). split.
  - cbn [step]. rewrite T. cbn [peer d_eid]. rewrite enc_data_len by lia.
    rewrite to_u32_of_N by (change (2 ^ 32) with 4294967296; lia). reflexivity.
  - cbn [step]. rewrite reader_data by lia. reflexivity.
Qed.
(** So not every packet that is sent arrives as it was written. *)
Theorem udp_whole_packets_refuted :
  ~ (forall sA sB a fa fb b p d o, tbl sA fa = Uf (Z.of_N fb) b -> fd_ok fb -> size p < 65536 ->
       step L sA (Packet fa p) = (sA, [Sent b d]) -> step L sB (Recv a d) = (sB, o) -> o = [Delivered fb p]).
Proof.
  intros F. set (s := St (fun _ => Uf (Z.of_N 70) 2) []). set (p := repeat 0 (N.to_nat 8977)).
  assert (SZ : size p = 8977) by (unfold size, p; rewrite repeat_length; lia).
  destruct (udp_long_packet_cut s s 1 70 70 2 p) as (d & A & B); [reflexivity|split; lia|lia|].
  specialize (F s s 1 70 70 2 p d _ eq_refl ltac:(split; lia) ltac:(lia) A B).
  apply (f_equal (fun o => match o with [Delivered _ q] => length q | _ => 0%nat end)) in F as X. cbv beta iota in X.
  rewrite firstn_length in X. unfold size in SZ. lia.
Qed.
(** A packet of 65536 bytes or more, if there were one, loses as much. *)
Theorem udp_huge_packet_cut : forall sA sB a fa fb b p, tbl sA fa = Uf (Z.of_N fb) b -> fd_ok fb ->
  65536 <= size p -> size p mod 65536 <= 8976 ->
  exists d, step L sA (Packet fa p) = (sA, [Sent b d]) /\
            step L sB (Recv a d) = (sB, [Delivered fb (firstn (N.to_nat (size p mod 65536)) p)]).
Proof.
  intros sA sB a fa fb b p T FB P M. unfold size, fd_ok in *. set (k := N.of_nat (length p) mod 65536) in *.
  exists (be 4 fb ++ firstn (N.to_nat k) p). split.
  - cbn [step]. rewrite T. cbn [peer d_eid]. unfold enc_data. change (2 ^ 16) with 65536. fold k.
    destruct (N.ltb_spec MAX_PACKET k) as [X|X]; [unfold MAX_PACKET in X; lia|].
    rewrite to_u32_of_N by (change (2 ^ 32) with 4294967296; lia). reflexivity.
  - cbn [step]. rewrite reader_data by lia. rewrite (firstn_short (firstn (N.to_nat k) p)) by (rewrite firstn_length; lia). reflexivity.
Qed.

(** ** What a datagram can do *)

(** A datagram breaks the IPCP exactly in the named situations ... *)
Lemma get_cut : forall d n, (n <= N.to_nat 8980)%nat -> get (firstn (N.to_nat 8980) d) 0 n = get d 0 n.
Proof.
  intros d n H. unfold get. cbn [skipn]. rewrite firstn_length, firstn_firstn.
  replace (Nat.min n (N.to_nat 8980)) with n by lia.
  destruct (Nat.leb_spec (0 + n) (Nat.min (N.to_nat 8980) (length d))), (Nat.leb_spec (0 + n) (length d)); try reflexivity; lia.
Qed.
Theorem udp_reader_breaks : forall s from d, (exists o, step L s (Recv from d) = (s, o) /\ In Crashed o) <-> breaks_reader d.
Proof.
  intros s from d. unfold breaks_reader, size, endpoint. cbn [step]. unfold reader. change MAX_PACKET with 8980.
  rewrite get_cut by lia. unfold get. cbn [skipn]. set (e := unbe (firstn 4 d)). rewrite firstn_length.
  destruct (Nat.leb_spec (0 + 4) (length d)) as [A|A].
  - fold e. destruct (N.eqb_spec e MGMT_EID) as [E|E]; unfold MGMT_EID in E.
    + destruct (N.ltb_spec (N.of_nat (Nat.min (N.to_nat 8980) (length d))) (N.of_nat MSG)) as [X|X]; unfold MSG in X.
      * split; [intros (o & O & I); injection O as <-; elim I|]. intros (_ & [(_ & Y)|Y]); lia.
      * destruct (N.ltb_spec MGMT_BUF (N.of_nat (Nat.min (N.to_nat 8980) (length d)))) as [Y|Y]; unfold MGMT_BUF in Y.
        -- split; [intros _; split; [lia|left; split; [exact E|lia]]|]. intros _. eexists. split; [reflexivity|left; reflexivity].
        -- split; [intros (o & O & I); injection O as _ <-; elim I|]. intros (_ & [(_ & Z)|Z]); lia.
    + destruct (N.leb_spec SYS_MAX_FLOWS e) as [X|X]; unfold SYS_MAX_FLOWS in X.
      * split; [intros _; split; [lia|right; exact X]|]. intros _. eexists. split; [reflexivity|left; reflexivity].
      * split; [intros (o & O & I); injection O as <-; destruct I as [I|[]]; discriminate I|]. intros (_ & [(Z & _)|Z]); lia.
  - split; [intros (o & O & I); injection O as <-; elim I|]. intros (Z & _). lia.
Qed.

(** ... and a frame that the reader has queued (so at least 46 bytes) breaks
    it exactly in these. *)
Lemma g1_nth : forall b k, (k < length b)%nat -> g b k 1 = nth k b 0.
Proof.
  intros b k H. unfold g, get. destruct (Nat.leb_spec (k + 1) (length b)) as [A|A]; [|lia].
  assert (E : exists x t, skipn k b = x :: t /\ nth k b 0 = x).
  { revert k H A. induction b as [|y b IH]; intros k H A; [cbn in H; lia|]. destruct k as [|k].
    - exists y, b. split; reflexivity.
    - cbn [skipn nth]. apply IH; cbn [length] in *; lia. }
  destruct E as (x & t & E & ->). rewrite E. unfold unbe. cbn [firstn rev app unle]. lia.
Qed.
Theorem udp_handler_breaks : forall s from b fs fd, frames s = (from, b) :: fs -> (46 <= length b)%nat ->
  ((exists s' o, step L s (Handle fd) = (s', o) /\ In Crashed o) <-> breaks_handler L b).
Proof.
  intros s from b fs fd F N. unfold breaks_handler. cbn [step]. rewrite F. unfold dec. unfold o_code at 1 2.
  rewrite (g1_nth b 12) by lia. destruct (N.eqb_spec (nth 12 b 0) FLOW_REQ) as [C|C]; unfold FLOW_REQ in C.
  - destruct (Nat.ltb_spec (length b) (MSG + L)) as [X|X]; unfold MSG in X.
    + split; [intros _; left; split; [exact C|lia]|]. intros _. eexists. eexists. split; [reflexivity|left; reflexivity].
    + split.
      * intros (s' & o & O & I). destruct fd; injection O as _ <-; (destruct I as [I|[]]; discriminate I).
      * intros [(_ & Y)|(Y & _)]; lia.
  - destruct (N.eqb_spec (nth 12 b 0) FLOW_REPLY) as [D|D]; unfold FLOW_REPLY in D.
    + destruct (Nat.ltb_spec (length b) MSG) as [X|X]; unfold MSG in X; [lia|].
      assert (GE : g b o_s_eid 4 = unbe (firstn 4 (skipn 4 b))).
      { unfold g, get, o_s_eid. destruct (Nat.leb_spec (4 + 4) (length b)); [reflexivity|lia]. }
      rewrite GE. destruct (N.leb_spec SYS_MAX_FLOWS (unbe (firstn 4 (skipn 4 b)))) as [Y|Y]; unfold SYS_MAX_FLOWS in Y.
      * split; [intros _; right; split; [exact D|split; [lia|exact Y]]|]. intros _. eexists. eexists. split; [reflexivity|left; reflexivity].
      * split.
        -- intros (s' & o & O & I). destruct (peer (tbl s (unbe (firstn 4 (skipn 4 b)))) =? from); injection O as _ <-; [destruct I as [I|[]]; discriminate I|elim I].
        -- intros [(Z & _)|(_ & _ & Z)]; lia.
    + split; [intros (s' & o & O & I); injection O as _ <-; elim I|]. intros [(Z & _)|(Z & _)]; congruence.
Qed.

(** The IRMd hears of an answer only if it came from the node that was asked. *)
Theorem udp_answer_from_peer : forall s fd s' o f r data, step L s (Handle fd) = (s', o) -> In (Answered f r data) o ->
  exists from b fs, frames s = (from, b) :: fs /\ peer (tbl s f) = from /\ f < 10240.
Proof.
  intros s fd s' o f r data H I. cbn [step] in H. destruct (frames s) as [|[from b] fs]; [injection H as _ <-; elim I|].
  exists from, b, fs. split; [reflexivity|]. destruct (dec L b) as [e dst qs dt|e de rr dt| |].
  - injection H as _ <-. destruct I as [I|[]]. discriminate I.
  - destruct (N.leb_spec SYS_MAX_FLOWS e) as [X|X]; [injection H as _ <-; destruct I as [I|[]]; discriminate I|].
    destruct (N.eqb_spec (peer (tbl s e)) from) as [P|P]; injection H as _ <-; [|elim I]. destruct I as [I|[]]. injection I as <- _ _.
    split; [exact P|exact X].
  - injection H as _ <-. elim I.
  - injection H as _ <-. destruct I as [I|[]]. discriminate I.
Qed.
(** After the end of a flow, until its descriptor is used again, no node is
    taken for its peer: the IRMd hears of no answer that came from an address
    and its packets go to no address. *)
Lemma ended_step : forall s e fd, peer (tbl s fd) = 0 -> ~ reopens fd e -> peer (tbl (fst (step L s e)) fd) = 0.
Proof.
  intros s e fd P R. destruct e as [f to dst qs data j|f to|from d|f|f r data j|f p|f]; cbn [step]; try exact P.
  - cbn [fst tbl]. unfold upd. destruct (N.eqb_spec fd f) as [X|X]; [elim R; symmetry; exact X|exact P].
  - destruct (reader d); exact P.
  - destruct (frames s) as [|[from b] fs]; [exact P|]. destruct (dec L b) as [e dst qs dt|e de rr dt| |]; try exact P.
    + destruct f as [f|]; [|exact P]. cbn [fst tbl]. unfold upd. destruct (N.eqb_spec fd f) as [X|X]; [elim R; symmetry; exact X|exact P].
    + destruct (SYS_MAX_FLOWS <=? e); [exact P|]. destruct (peer (tbl s e) =? from); [|exact P]. cbn [fst tbl].
      destruct (rr =? 0)%Z; [|exact P]. unfold upd. destruct (N.eqb_spec fd e) as [X|X]; [subst e; exact P|exact P].
  - cbn [fst tbl]. unfold upd. destruct (fd =? f); [reflexivity|exact P].
Qed.
Theorem udp_ended : forall h h0 fd s o, run L (h ++ Dealloc fd :: h0) = (s, o) -> (forall e, In e h -> ~ reopens fd e) ->
  (forall x s' o' r data, step L s (Handle x) = (s', o') -> In (Answered fd r data) o' ->
     exists b fs, frames s = (0, b) :: fs) /\
  (forall p s' o' to d, step L s (Packet fd p) = (s', o') -> In (Sent to d) o' -> to = 0).
Proof.
  intros h h0 fd s o H R.
  assert (P : peer (tbl s fd) = 0).
  { revert s o H. induction h as [|e h IH]; intros s o H.
    - cbn [app run] in H. destruct (run L h0) as [s0 o0]. cbn [step] in H. injection H as <- _. cbn [tbl]. unfold upd. rewrite N.eqb_refl. reflexivity.
    - cbn [app run] in H. destruct (run L (h ++ Dealloc fd :: h0)) as [s0 o0] eqn:E.
      assert (P : peer (tbl s0 fd) = 0) by (eapply IH; [intros e' I; apply R; right; exact I|reflexivity]).
      destruct (step L s0 e) as [s1 o1] eqn:F. injection H as <- _.
      pose proof (ended_step s0 e fd P (R e (or_introl eq_refl))) as Q. rewrite F in Q. exact Q. }
  split.
  - intros x s' o' r data S I. destruct (udp_answer_from_peer _ _ _ _ _ _ _ S I) as (from & b & fs & A & B & _).
    exists b, fs. rewrite A. rewrite P in B. rewrite B. reflexivity.
  - intros p s' o' to d S I. cbn [step] in S. destruct (enc_data (d_eid (tbl s fd)) p); injection S as _ <-; [|elim I].
    destruct I as [I|[]]. injection I as <- _. exact P.
Qed.
(** But its packets may come from anybody. *)
Theorem udp_packet_from_peer_refuted :
  ~ (forall s from d s' fd p, step L s (Recv from d) = (s', [Delivered fd p]) -> peer (tbl s fd) = from).
Proof.
  intros F. set (s := St (fun _ => Uf 70 2) []).
  specialize (F s 9 (be 4 70 ++ [1]) s 70 [1]). cbn [step] in F. rewrite reader_data in F by lia.
  rewrite firstn_short in F by (cbn [length]; lia). specialize (F eq_refl). discriminate F.
Qed.

(** ** Allocation *)

(** An answer that is handled before the asking thread has stored whom it
    asked is dropped. *)
Theorem udp_fast_answer_refuted :
  ~ (forall h fa b dst qs data r data' fb j j' o1 o2 s s1 s2,
       length dst = L -> length j = 5%nat -> length j' = 32%nat -> fd_ok fa -> fd_ok fb ->
       fst (run L h) = s -> tbl s fa = Uf (-1) 0 -> b <> 0 -> frames s = [] ->
       step L s (Alloc fa b dst qs data j) = (s, [Sent b (enc_req fa dst qs data j)]) ->
       step L s (Recv b (enc_reply fa fb r data' j')) = (s1, o1) ->
       step L s1 (Handle None) = (s2, o2) -> o2 = [Answered fa r data']).
Proof.
  intros F.
  assert (RR : reader (enc_reply 70 71 0 [] (repeat 0 32)) = ToMgmt (enc_reply 70 71 0 [] (repeat 0 32))) by (apply reader_reply; cbn; lia).
  specialize (F [] 70 5 (repeat 0 L) (QS 0 0 0 0 0 0 0 0 0) [] 0%Z [] 71 (repeat 0 5) (repeat 0 32) []
    [] init (St (fun _ => Uf (-1) 0) [(5, enc_reply 70 71 0 [] (repeat 0 32))]) (St (fun _ => Uf (-1) 0) [])).
  assert (X : @nil out = [Answered 70 0 []]); [|discriminate X].
  apply F; try reflexivity; try (split; lia); try discriminate.
  apply repeat_length.
Qed.
(** (With the two in order it is answered: [udp_flow_works_partial].) *)

(** A datagram that the network delivers twice answers an allocation twice. *)
Theorem udp_one_answer_refuted :
  ~ (forall h fd, (answers fd (snd (run L h)) <= requests fd h)%nat).
Proof.
  intros F. set (d := enc_reply 70 71 0 [] (repeat 0 32)).
  assert (RR : reader d = ToMgmt d) by (apply reader_reply; cbn; lia).
  assert (DD : dec L d = Reply 70 71 0 []) by (apply dec_reply; try reflexivity; cbn; lia).
  specialize (F [Handle None; Recv 5 d; Handle None; Recv 5 d; Store 70 5; Alloc 70 5 (repeat 0 L) (QS 0 0 0 0 0 0 0 0 0) [] (repeat 0 5)] 70).
  clearbody d. unfold answers, requests in F. cbn -[dec reader enc_req] in F.
  repeat (progress (rewrite ?RR, ?DD in F); cbn -[dec reader enc_req] in F). lia.
Qed.

(** ** Frames are handled latest first *)

(** Nothing is lost between the reader and the handler ... *)
Theorem udp_frames_kept : forall s from d b, reader d = ToMgmt b ->
  forall s' o, step L s (Recv from d) = (s', o) -> frames s' = (from, b) :: frames s.
Proof. intros s from d b R s' o H. cbn [step] in H. rewrite R in H. injection H as <- _. reflexivity. Qed.
(** ... but a frame that waits is handled only after all that come later, so
    not in the order of arrival, ... *)
Theorem udp_frames_order_refuted :
  ~ (forall s from1 d1 b1 from2 d2 b2 s1 s2 s3 o fd, frames s = [] ->
       reader d1 = ToMgmt b1 -> reader d2 = ToMgmt b2 -> b1 <> b2 ->
       step L s (Recv from1 d1) = (s1, []) -> step L s1 (Recv from2 d2) = (s2, []) ->
       step L s2 (Handle fd) = (s3, o) -> In (from2, b2) (frames s3)).
Proof.
  intros F. set (d1 := enc_reply 70 71 0 [] (repeat 0 32)). set (d2 := enc_reply 70 71 0 [1] (repeat 0 32)).
  assert (R1 : reader d1 = ToMgmt d1) by (apply reader_reply; cbn; lia).
  assert (R2 : reader d2 = ToMgmt d2) by (apply reader_reply; cbn; lia).
  assert (DD : dec L d2 = Reply 70 71 0 [1]) by (apply dec_reply; try reflexivity; cbn; lia).
  assert (NE : d1 <> d2). { intros E. apply (f_equal (@length N)) in E. vm_compute in E. discriminate E. }
  specialize (F init 1 d1 d1 2 d2 d2 (St (tbl init) [(1, d1)]) (St (tbl init) [(2, d2); (1, d1)]) (St (tbl init) [(1, d1)]) [] None).
  cbn [step] in F. rewrite R1, R2 in F. cbn [frames tbl] in F. rewrite DD in F.
  specialize (F eq_refl eq_refl eq_refl NE eq_refl eq_refl eq_refl). cbn [frames] in F. destruct F as [F|[]]. apply (f_equal fst) in F. discriminate F.
Qed.
(** ... and while frames keep coming it is not handled at all, however many
    are. *)
Fixpoint steps (s : st) (l : list ev) : st :=
  match l with [] => s | e :: l => steps (fst (step L s e)) l end.
Theorem udp_frame_starves : forall n s d b from rest, frames s = (from, b) :: rest ->
  reader d = ToMgmt d -> dec L d = Unknown ->
  frames (steps s (concat (repeat [Recv 9 d; Handle None] n))) = (from, b) :: rest.
Proof.
  intros n. induction n as [|n IH]; intros s d b from rest F R D; [exact F|].
  cbn [repeat concat app steps step]. rewrite R. cbn [fst frames]. rewrite D. cbn [fst]. apply IH; assumption.
Qed.
End L.

(** ** Cases *)
Example udp_cases :
  (exists d, breaks_reader d) /\ (exists d, size d = 46 /\ breaks_handler 16 d /\ reader d = ToMgmt d) /\
  (exists d, reader d = ToMgmt d /\ dec 16 d = Unknown) /\
  qos_ok (QS 1 2 3 4 5 6 7 8 9) /\ fd_ok 64 /\ fd_ok 4095.
Proof.
  split; [exists [0; 1; 0; 0]; split; [vm_compute; discriminate|right; vm_compute; discriminate]|].
  split; [exists (repeat 0 12 ++ [1] ++ repeat 0 33); split; [reflexivity|split; [left; split; [reflexivity|vm_compute; lia]|vm_compute; reflexivity]]|].
  split; [exists (repeat 0 46); split; vm_compute; reflexivity|].
  split; [repeat split|split; split; vm_compute; try discriminate; reflexivity].
Qed.

(* a flow that was opened, was ended and is not opened again *)
Example udp_ended_case : exists s o, run 16 ([Recv 7 []] ++ Dealloc 64 :: [Store 64 9]) = (s, o) /\
  (forall e, In e [Recv 7 []] -> ~ reopens 64 e) /\ peer (tbl (fst (run 16 [Store 64 9])) 64) = 9.
Proof.
  eexists. eexists. split; [reflexivity|]. split; [|vm_compute; reflexivity]. intros e [<-|[]] [].
Qed.

Print Assumptions udp_flow_works_partial.
Print Assumptions udp_long_packet_cut.
Print Assumptions udp_whole_packets_refuted.
Print Assumptions udp_huge_packet_cut.
Print Assumptions udp_reader_breaks.
Print Assumptions udp_handler_breaks.
Print Assumptions udp_answer_from_peer.
Print Assumptions udp_ended.
Print Assumptions udp_packet_from_peer_refuted.
Print Assumptions udp_fast_answer_refuted.
Print Assumptions udp_one_answer_refuted.
Print Assumptions udp_frames_order_refuted.
Print Assumptions udp_frame_starves.
