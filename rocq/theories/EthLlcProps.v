(** Theorems about the IPCP over Ethernet with LLC (C97). *)
From Coq Require Import List Sorted Arith NArith ZArith Bool Lia ZifyBool ZifyNat ZifyN.
From Verif Require Import Bytes.
From Verif Require UdpModel UdpSpec UdpProps ShimModel EthDixProps.
From Verif Require Import EthLlcModel EthLlcSpec.
Import ListNotations.
Open Scope N_scope.

Ltac lens := rewrite ?app_length, ?be_length, ?le_length; cbn [length]; lia.
Ltac field :=
  repeat (rewrite UdpProps.g_skip by lens);
  match goal with |- UdpModel.g (_ ++ _) ?o _ = _ => replace o with 0%nat by lens end; rewrite UdpProps.g_here by lens.
Ltac skips := repeat (rewrite EthDixProps.skip_app by lens);
  match goal with |- skipn ?o _ = _ => replace o with 0%nat by lens end; reflexivity.

(** ** Reversing bits *)
Lemma below_list : forall x n, x < N.of_nat n -> In x (map N.of_nat (seq 0 n)).
Proof. intros x n H. apply in_map_iff. exists (N.to_nat x). split; [lia|apply in_seq; lia]. Qed.
Theorem llc_sap_bits : forall b, b < 256 ->
  reverse_bits b < 256 /\ reverse_bits (reverse_bits b) = b /\ swapped (reverse_bits b) b.
Proof.
  assert (A : forallb (fun b => (reverse_bits b <? 256) && (reverse_bits (reverse_bits b) =? b) &&
      forallb (fun i => Bool.eqb (N.testbit (reverse_bits b) i) (N.testbit b (7 - i))) (map N.of_nat (seq 0 8)))
    (map N.of_nat (seq 0 256)) = true) by (vm_compute; reflexivity).
  rewrite forallb_forall in A. intros b H. specialize (A b (below_list b 256 ltac:(lia))).
  apply andb_prop in A. destruct A as (A & C). apply andb_prop in A. destruct A as (A & B).
  split; [apply N.ltb_lt, A|]. split; [apply N.eqb_eq, B|]. intros i I. rewrite forallb_forall in C.
  apply Bool.eqb_prop, (C i (below_list i 8 ltac:(lia))).
Qed.

(** ** Frames *)
Definition frame (c : cfg) (dst dsap ssap : N) (p : list N) : list N :=
  be 6 dst ++ be 6 (me c) ++ be 2 (3 + N.of_nat (length p)) ++ [dsap; ssap; 3] ++ p.
Lemma send_ok : forall c dst a b p, N.of_nat (length p) <= mtu c - 3 -> send c dst a b p = Some (frame c dst a b p).
Proof. intros c dst a b p H. unfold send. destruct (N.ltb_spec (mtu c - 3) (N.of_nat (length p))) as [X|X]; [lia|reflexivity]. Qed.
Lemma frame_len : forall c dst a b p, length (frame c dst a b p) = (17 + length p)%nat.
Proof. intros. unfold frame. rewrite !app_length, !be_length. cbn [length]. lia. Qed.
Lemma frame_to : forall c dst a b p, dst < 2 ^ 48 -> to_of (frame c dst a b p) = dst.
Proof.
  intros c dst a b p D. unfold to_of, frame. rewrite UdpProps.firstn_app_len by apply be_length.
  apply unbe_be. rewrite EthDixProps.pow2. exact D.
Qed.
Lemma frame_fields : forall c dst a b p stale, cfg_ok c -> N.of_nat (length p) <= 1497 ->
  let m := frame c dst a b p ++ stale in
  g m 6 6 = me c /\ g m 12 2 = 3 + N.of_nat (length p) /\ g m 14 1 = a /\ g m 15 1 = b /\ skipn HEADER m = p ++ stale.
Proof.
  intros c dst a b p stale (M & _) P m. unfold mac_ok in M. unfold m, frame. rewrite <- !app_assoc.
  split; [field; apply unbe_be; rewrite EthDixProps.pow2; exact M|].
  split; [field; apply unbe_be; change (256 ^ N.of_nat 2) with 65536; lia|].
  split; [rewrite !UdpProps.g_skip by lens; rewrite !be_length, UdpProps.g1_nth by (cbn; lia); reflexivity|].
  split; [rewrite !UdpProps.g_skip by lens; rewrite !be_length, UdpProps.g1_nth by (cbn; lia); reflexivity|].
  unfold HEADER. skips.
Qed.

(** The reader, for a frame that the link can bring. *)
Definition len_of (f : list N) : N := (says f + 65533) mod 65536.
Lemma reader_whole : forall c s f stale junk, whole c f ->
  reader c s f stale junk =
    if 1535 <? says f then Dropped
    else if (reverse_bits (ssap_of f) =? 1) && (reverse_bits (dsap_of f) =? 1) then
      if 2048 <? len_of f then Overrun
      else ToMgmt (from_of f) (firstn (N.to_nat (len_of f)) (carries f ++ stale) ++ junk) (N.to_nat (len_of f))
    else if 64 <=? reverse_bits (dsap_of f) then Overrun
    else let fd := to_fd s (reverse_bits (dsap_of f)) in
      if (fd <? 0)%Z then Dropped
      else if negb (r_sap (tbl s (Z.to_N fd)) =? Z.of_N (reverse_bits (ssap_of f)))%Z || negb (r_addr (tbl s (Z.to_N fd)) =? from_of f) then Dropped
      else if mtu c + 288 <? len_of f then Overrun
      else ToFlow fd (firstn (N.to_nat (len_of f)) (carries f ++ stale)).
Proof.
  intros c s f stale junk (W1 & W2). unfold size in *. unfold reader.
  rewrite UdpProps.firstn_short by (unfold HEADER; lia).
  assert (M1 : g (f ++ stale) 12 2 = says f) by (rewrite EthDixProps.g_app_l by lia; apply EthDixProps.g_at; lia).
  assert (M2 : g (f ++ stale) 14 1 = dsap_of f) by (rewrite EthDixProps.g_app_l by lia; apply UdpProps.g1_nth; lia).
  assert (M3 : g (f ++ stale) 15 1 = ssap_of f) by (rewrite EthDixProps.g_app_l by lia; apply UdpProps.g1_nth; lia).
  assert (M4 : g (f ++ stale) 6 6 = from_of f) by (rewrite EthDixProps.g_app_l by lia; apply EthDixProps.g_at; lia).
  assert (M5 : skipn HEADER (f ++ stale) = carries f ++ stale).
  { unfold HEADER, carries. rewrite skipn_app. replace (17 - length f)%nat with 0%nat by lia. reflexivity. }
  destruct f as [|x t] eqn:E; [cbn in W1; lia|]. rewrite <- E in *.
  rewrite M1, M2, M3, M4, M5. unfold len_of. replace (says f + 65536 - 3) with (says f + 65533) by lia. reflexivity.
Qed.

Lemma reader_frame : forall c c' s dst a b p stale junk, cfg_ok c -> cfg_ok c' -> a < 256 -> b < 256 ->
  N.of_nat (length p) <= mtu c - 3 -> N.of_nat (length p) <= mtu c' - 3 ->
  reader c' s (frame c dst (reverse_bits a) (reverse_bits b) p) stale junk =
    if (b =? 1) && (a =? 1) then ToMgmt (me c) (p ++ junk) (length p)
    else if 64 <=? a then Overrun
    else if (to_fd s a <? 0)%Z then Dropped
    else if negb (r_sap (tbl s (Z.to_N (to_fd s a))) =? Z.of_N b)%Z || negb (r_addr (tbl s (Z.to_N (to_fd s a))) =? me c) then Dropped
    else ToFlow (to_fd s a) p.
Proof.
  intros c c' s dst a b p stale junk OC OC' A B P P'.
  assert (LL : N.of_nat (length p) <= 1497) by (destruct OC as (_ & X); lia).
  destruct (frame_fields c dst (reverse_bits a) (reverse_bits b) p stale OC LL) as (F1 & F2 & F3 & F4 & F5).
  unfold reader. rewrite UdpProps.firstn_short by (rewrite frame_len; unfold HEADER; lia).
  destruct (frame c dst (reverse_bits a) (reverse_bits b) p) as [|x t] eqn:E.
  { pose proof (frame_len c dst (reverse_bits a) (reverse_bits b) p) as Y. rewrite E in Y. cbn in Y. lia. }
  rewrite F1, F2, F3, F4, F5.
  destruct (llc_sap_bits a A) as (_ & -> & _). destruct (llc_sap_bits b B) as (_ & -> & _).
  destruct (N.ltb_spec 1535 (3 + N.of_nat (length p))) as [X|X]; [lia|].
  assert (LE : (3 + N.of_nat (length p) + 65536 - 3) mod 65536 = N.of_nat (length p)).
  { replace (3 + N.of_nat (length p) + 65536 - 3) with (N.of_nat (length p) + 1 * 65536) by lia.
    rewrite N.mod_add by lia. apply N.mod_small. lia. }
  rewrite LE, Nat2N.id, UdpProps.firstn_app_len by reflexivity.
  unfold MGMT_SAP, MGMT_FRAME_SIZE, MAX_SAPS, DU_BUFF_OVERHEAD.
  destruct (N.ltb_spec 2048 (N.of_nat (length p))) as [Y|Y]; [lia|].
  destruct (N.ltb_spec (mtu c' + 288) (N.of_nat (length p))) as [Z|Z]; [lia|]. reflexivity.
Qed.

(** ** Messages *)
Lemma u8_of_N : forall x, x < 256 -> u8 (Z.of_N x) = x.
Proof. intros x H. unfold u8. rewrite Z.mod_small by lia. apply N2Z.id. Qed.
Lemma i8_small : forall x, x < 128 -> i8 x = Z.of_N x.
Proof. intros x H. unfold i8, UdpModel.of_i8. rewrite N.mod_small by lia. destruct (N.ltb_spec x 128); [reflexivity|lia]. Qed.

Section L.
Variable L : nat.

Lemma req_len : forall x h q data j, length h = L -> length j = 2%nat -> length (enc_req x h q data j) = (36 + L + length data)%nat.
Proof. intros x h q data j H J. unfold enc_req. rewrite !app_length, !be_length, !le_length, firstn_length, skipn_length. lia. Qed.
Lemma reply_len : forall a b r data j, length j = 32%nat -> length (enc_reply a b r data j) = (36 + length data)%nat.
Proof. intros a b r data j J. unfold enc_reply. rewrite !app_length, !le_length. cbn [length]. lia. Qed.

Lemma mgmt_req : forall s src x hash q data j junk fd, length hash = L -> UdpSpec.qos_ok q -> length j = 2%nat -> x < 128 ->
  ShimModel.find_reg (ShimModel.registry (names s)) hash = true ->
  mgmt L s src (enc_req x hash q data j ++ junk) (length (enc_req x hash q data j)) (Some fd) =
  (set_ef s fd (Ef (sap (tbl s fd)) (Z.of_N x) src), [Asked hash q data]).
Proof.
  intros s src x hash q data j junk fd H (Q1 & Q2 & Q3 & Q4 & Q5 & Q6 & Q7 & Q8 & Q9) J I R.
  unfold mgmt. rewrite req_len by assumption. unfold enc_req. set (a := firstn 1 j). set (b := skipn 1 j).
  assert (A : length a = 1%nat) by (unfold a; rewrite firstn_length; lia).
  assert (B : length b = 1%nat) by (unfold b; rewrite skipn_length; lia). clearbody a b. rewrite <- !app_assoc.
  set (m := le 1 x ++ a ++ le 1 FLOW_REQ ++ le 1 (UdpModel.availability q) ++ be 4 (UdpModel.loss q) ++
    be 8 (UdpModel.bandwidth q) ++ be 4 (UdpModel.ber q) ++ be 4 (UdpModel.max_gap q) ++ be 4 (UdpModel.delay q) ++
    be 4 (UdpModel.timeout q) ++ be 2 (UdpModel.cypher_s q) ++ le 1 (UdpModel.in_order q) ++ b ++ hash ++ data ++ junk).
  assert (G0 : g m o_code 1 = FLOW_REQ) by (unfold m, o_code; field; apply UdpProps.unbe_le1; reflexivity).
  assert (G1 : g m o_ssap 1 = x) by (unfold m, o_ssap; rewrite UdpProps.g_here by lens; apply UdpProps.unbe_le1; lia).
  assert (G2 : g m o_delay 4 = UdpModel.delay q) by (unfold m, o_delay; field; apply unbe_be; rewrite EthDixProps.pow2; exact Q1).
  assert (G3 : g m o_bandwidth 8 = UdpModel.bandwidth q) by (unfold m, o_bandwidth; field; apply unbe_be; rewrite EthDixProps.pow2; exact Q2).
  assert (G4 : g m o_availability 1 = UdpModel.availability q) by (unfold m, o_availability; field; apply UdpProps.unbe_le1; exact Q3).
  assert (G5 : g m o_loss 4 = UdpModel.loss q) by (unfold m, o_loss; field; apply unbe_be; rewrite EthDixProps.pow2; exact Q4).
  assert (G6 : g m o_ber 4 = UdpModel.ber q) by (unfold m, o_ber; field; apply unbe_be; rewrite EthDixProps.pow2; exact Q5).
  assert (G7 : g m o_in_order 1 = UdpModel.in_order q) by (unfold m, o_in_order; field; apply UdpProps.unbe_le1; exact Q6).
  assert (G8 : g m o_max_gap 4 = UdpModel.max_gap q) by (unfold m, o_max_gap; field; apply unbe_be; rewrite EthDixProps.pow2; exact Q7).
  assert (G9 : g m o_cypher_s 2 = UdpModel.cypher_s q) by (unfold m, o_cypher_s; field; apply unbe_be; rewrite EthDixProps.pow2; exact Q8).
  assert (G10 : g m o_timeout 4 = UdpModel.timeout q) by (unfold m, o_timeout; field; apply unbe_be; rewrite EthDixProps.pow2; exact Q9).
  assert (SK : skipn MSG m = hash ++ data ++ junk) by (unfold m, MSG; skips).
  assert (SK2 : skipn (MSG + L) m = data ++ junk) by (unfold m, MSG; skips).
  clearbody m. rewrite G0, G1, G2, G3, G4, G5, G6, G7, G8, G9, G10, SK, SK2.
  change (FLOW_REQ =? FLOW_REQ) with true. cbv iota.
  destruct (Nat.ltb_spec (36 + L + length data) (MSG + L)) as [X|X]; [unfold MSG in X; lia|].
  rewrite UdpProps.firstn_app_len by exact H. rewrite R, i8_small by exact I.
  rewrite UdpProps.firstn_app_len by (unfold MSG; lia). destruct q; reflexivity.
Qed.

Lemma mgmt_reply : forall s src x y r data j junk fd, length j = 32%nat -> x < 128 -> y < 64 -> (-128 <= r < 128)%Z ->
  (0 <= to_fd s y)%Z ->
  mgmt L s src (enc_reply x y r data j ++ junk) (length (enc_reply x y r data j)) fd =
  (if (r =? 0)%Z then set_ef s (Z.to_N (to_fd s y)) (Ef (sap (tbl s (Z.to_N (to_fd s y)))) (Z.of_N x) src)
   else release s (sap (tbl s (Z.to_N (to_fd s y)))), [Answered (Z.to_N (to_fd s y)) r data]).
Proof.
  intros s src x y r data j junk fd J S D R P. unfold mgmt. rewrite reply_len by exact J. unfold enc_reply. rewrite <- !app_assoc.
  set (m := le 1 x ++ le 1 y ++ le 1 FLOW_REPLY ++ j ++ [to_i8 r] ++ data ++ junk).
  assert (G0 : g m o_code 1 = FLOW_REPLY) by (unfold m, o_code; field; apply UdpProps.unbe_le1; reflexivity).
  assert (G1 : g m o_ssap 1 = x) by (unfold m, o_ssap; rewrite UdpProps.g_here by lens; apply UdpProps.unbe_le1; lia).
  assert (G2 : g m o_dsap 1 = y) by (unfold m, o_dsap; field; apply UdpProps.unbe_le1; lia).
  assert (G3 : g m o_response 1 = to_i8 r).
  { unfold m, o_response. field. unfold unbe. cbn [rev app unle]. lia. }
  assert (SK : skipn MSG m = data ++ junk) by (unfold m, MSG; skips).
  clearbody m. rewrite G0, G1, G2, G3, SK, (UdpProps.to_of_i8 r R), i8_small by exact S.
  change (FLOW_REPLY =? FLOW_REQ) with false. change (FLOW_REPLY =? FLOW_REPLY) with true. cbv iota.
  destruct (Nat.ltb_spec (36 + length data) MSG) as [X|X]; [unfold MSG in X; lia|].
  destruct (N.leb_spec MAX_SAPS y) as [Y|Y]; [unfold MAX_SAPS in Y; lia|].
  destruct (Z.ltb_spec (to_fd s y) 0) as [Z|Z]; [lia|].
  rewrite UdpProps.firstn_app_len by (unfold MSG; lia). reflexivity.
Qed.

Lemma range_in : forall k n x, In x (map N.of_nat (seq k n)) <-> N.of_nat k <= x < N.of_nat (k + n).
Proof.
  intros k n x. rewrite in_map_iff. split.
  - intros (m & <- & I). apply in_seq in I. lia.
  - intros H. exists (N.to_nat x). split; [lia|apply in_seq; lia].
Qed.
Lemma mem_in : forall x u, existsb (N.eqb x) u = true <-> In x u.
Proof.
  intros x u. rewrite existsb_exists. split; [intros (y & I & E); apply N.eqb_eq in E; subst y; exact I|].
  intros I. exists x. split; [exact I|apply N.eqb_refl].
Qed.
Lemma free_in : forall u x, In x (free_from u) <-> 2 <= x < 66 /\ ~ In x u.
Proof.
  intros u x. unfold free_from. rewrite filter_In, range_in, negb_true_iff, <- mem_in.
  destruct (existsb (N.eqb x) u).
  - split; [intros (_ & X); discriminate X|]. intros (_ & X). elim X. reflexivity.
  - split; intros (R & _); (split; [exact R|]); [discriminate|reflexivity].
Qed.
(* the first is the lowest *)
Lemma filter_low : forall f l x t, StronglySorted N.lt l -> filter f l = x :: t -> forall y, In y t -> x < y.
Proof.
  intros f l x t S. revert x t. induction S as [|z l S IH F]; intros x t E y I; [discriminate E|]. cbn [filter] in E.
  destruct (f z); [|apply (IH x t E y I)]. injection E as -> <-. apply filter_In in I. destruct I as (I & _).
  rewrite Forall_forall in F. apply F, I.
Qed.
Lemma range_sorted : forall n k, StronglySorted N.lt (map N.of_nat (seq k n)).
Proof.
  induction n as [|n IH]; intros k; cbn [seq map]; constructor; [apply IH|]. apply Forall_forall. intros y Y. apply in_map_iff in Y.
  destruct Y as (m & <- & Y). apply in_seq in Y. lia.
Qed.
Lemma free_eq : forall u, free_from u = filter (fun x => negb (existsb (N.eqb x) u)) (map N.of_nat (seq 2 64)).
Proof. reflexivity. Qed.
Lemma free_low : forall u x t, free_from u = x :: t -> forall y, In y t -> x < y.
Proof. intros u x t E. rewrite free_eq in E. exact (filter_low _ _ x t (range_sorted 64 2) E). Qed.
Lemma alloc_eq : forall s, alloc_sap s = hd_error (free_from (used s)).
Proof. reflexivity. Qed.
Lemma hd_in : forall (l : list N) x, hd_error l = Some x -> In x l.
Proof. intros [|y l] x H; [discriminate H|]. injection H as ->. left. reflexivity. Qed.
Lemma alloc_range : forall s x, alloc_sap s = Some x -> 2 <= x < 66 /\ ~ In x (used s).
Proof. intros s x H. rewrite alloc_eq in H. apply (proj1 (free_in (used s) x)). apply hd_in, H. Qed.
Opaque alloc_sap free_from.

(** ** The life of a flow between two nodes *)

(** Node A, which knows that node B has a name, asks for a flow; B's IRMd is
    asked for it as it was requested and answers, A's IRMd gets the answer; then
    every packet that fits the MTUs and is written on one end is delivered on
    the other, and on no other flow.  Whatever the two nodes did before, as long
    as they have a free SAP below 64. *)
Theorem llc_flow_works_partial : forall A B sA sB fa fb x y h q data r data' ja jb st1 st2 ju1 ju2,
  cfg_ok A -> cfg_ok B -> length h = L -> UdpSpec.qos_ok q ->
  36 + N.of_nat (L + length data) <= N.min (mtu A) (mtu B) - 3 -> 36 + N.of_nat (length data') <= N.min (mtu A) (mtu B) - 3 ->
  length ja = 2%nat -> length jb = 32%nat -> (-128 <= r < 128)%Z ->
  frames sA = [] -> frames sB = [] ->
  alloc_sap sA = Some x -> alloc_sap sB = Some y -> x < 64 -> y < 64 ->
  ShimModel.find_any (ShimModel.directory (names sA)) h = Some (me B) ->
  ShimModel.find_reg (ShimModel.registry (names sB)) h = true ->
  exists d1 d2 sA1 sA2 sA3 sB1 sB2 sB3,
    step L A sA (Alloc fa h q data ja) = (sA1, [Sent d1]) /\ to_of d1 = me B /\
    step L B sB (Recv d1 st1 ju1) = (sB1, []) /\
    step L B sB1 (Handle (Some fb)) = (sB2, [Asked h q data]) /\
    step L B sB2 (Respond fb r data' jb) = (sB3, [Sent d2]) /\ to_of d2 = me A /\
    step L A sA1 (Recv d2 st2 ju2) = (sA2, []) /\
    step L A sA2 (Handle None) = (sA3, [Answered fa r data']) /\
    (r = 0%Z -> forall p st ju, size p <= N.min (mtu A) (mtu B) - 3 ->
      (exists d, step L A sA3 (Packet fa p) = (sA3, [Sent d]) /\ to_of d = me B /\
                 step L B sB3 (Recv d st ju) = (sB3, [Delivered fb p])) /\
      (exists d, step L B sB3 (Packet fb p) = (sB3, [Sent d]) /\ to_of d = me A /\
                 step L A sA3 (Recv d st ju) = (sA3, [Delivered fa p]))).
Proof.
  intros A B sA sB fa fb x y h q data r data' ja jb st1 st2 ju1 ju2 OA OB H Q M1 M2 JA JB R EA EB AX AY X64 Y64 DI RE.
  pose proof (req_len x h q data ja H JA) as LA. pose proof (reply_len y x r data' jb JB) as LB.
  pose proof (alloc_range sA x AX) as (XR & _). pose proof (alloc_range sB y AY) as (YR & _).
  assert (MA : me A < 2 ^ 48) by apply OA. assert (MB : me B < 2 ^ 48) by apply OB.
  set (sA1 := set_fd (set_ef (set_used sA (x :: used sA)) fa (Ef (Z.of_N x) (r_sap (tbl sA fa)) (r_addr (tbl sA fa)))) x (Z.of_N fa)).
  set (sB2 := set_ef (St (used sB) (to_fd sB) (tbl sB) (names sB) []) fb (Ef (sap (tbl sB fb)) (Z.of_N x) (me A))).
  set (sB3 := set_fd (set_ef (set_used sB2 (y :: used sB2)) fb (Ef (Z.of_N y) (Z.of_N x) (me A))) y (Z.of_N fb)).
  set (sA1' := St (used sA1) (to_fd sA1) (tbl sA1) (names sA1) []).
  set (sA3 := if (r =? 0)%Z then set_ef sA1' fa (Ef (Z.of_N x) (Z.of_N y) (me B)) else release sA1' (Z.of_N x)).
  assert (TA : to_fd sA1' x = Z.of_N fa) by (cbn; rewrite N.eqb_refl; reflexivity).
  assert (SA : sap (tbl sA1' fa) = Z.of_N x) by (cbn; rewrite N.eqb_refl; reflexivity).
  exists (frame A (me B) (reverse_bits 1) (reverse_bits 1) (enc_req x h q data ja)),
    (frame B (me A) (reverse_bits 1) (reverse_bits 1) (enc_reply y x r data' jb)), sA1,
    (St (used sA1) (to_fd sA1) (tbl sA1) (names sA1) [(me B, enc_reply y x r data' jb ++ ju2, length (enc_reply y x r data' jb))]), sA3,
    (St (used sB) (to_fd sB) (tbl sB) (names sB) [(me A, enc_req x h q data ja ++ ju1, length (enc_req x h q data ja))]), sB2, sB3.
  split; [cbn [step]; rewrite DI, AX; unfold MAX_SAPS; destruct (N.leb_spec 64 x); [lia|];
          unfold send_mgmt; rewrite send_ok by lia; reflexivity|].
  split; [apply frame_to; exact MB|].
  split; [cbn [step]; rewrite (reader_frame A B) by (try assumption; lia); rewrite EB; reflexivity|].
  split; [cbn [step frames]; rewrite mgmt_req by (try assumption; lia); reflexivity|].
  split.
  { assert (AY2 : alloc_sap sB2 = Some y).
    { rewrite alloc_eq in AY |- *. replace (used sB2) with (used sB) by reflexivity. exact AY. }
    cbn [step]. rewrite AY2. unfold MAX_SAPS. destruct (N.leb_spec 64 y); [lia|].
    assert (TB : tbl sB2 fb = Ef (sap (tbl sB fb)) (Z.of_N x) (me A)) by (cbn; rewrite N.eqb_refl; reflexivity).
    rewrite TB. cbn [r_sap r_addr]. rewrite u8_of_N by lia. unfold send_mgmt. rewrite send_ok by lia. reflexivity. }
  split; [apply frame_to; exact MA|].
  split; [cbn [step]; rewrite (reader_frame B A) by (try assumption; lia); change (frames sA1) with (frames sA); rewrite EA; reflexivity|].
  split.
  { cbn [step frames used to_fd tbl names]. fold sA1'. rewrite mgmt_reply by (try assumption; rewrite ?TA; lia).
    rewrite TA, N2Z.id, SA. unfold sA3. destruct (r =? 0)%Z; reflexivity. }
  intros R0 p st ju P. unfold size in P.
  assert (FA : tbl sA3 fa = Ef (Z.of_N x) (Z.of_N y) (me B)) by (unfold sA3; rewrite R0; cbn; rewrite N.eqb_refl; reflexivity).
  assert (FB : tbl sB3 fb = Ef (Z.of_N y) (Z.of_N x) (me A)) by (cbn; rewrite N.eqb_refl; reflexivity).
  assert (TA3 : to_fd sA3 x = Z.of_N fa) by (unfold sA3; rewrite R0; cbn; rewrite N.eqb_refl; reflexivity).
  assert (TB3 : to_fd sB3 y = Z.of_N fb) by (cbn; rewrite N.eqb_refl; reflexivity).
  clearbody sA3 sB3. split.
  - exists (frame A (me B) (reverse_bits y) (reverse_bits x) p). split; [|split].
    + cbn [step]. rewrite FA. cbn [r_addr r_sap sap]. rewrite !u8_of_N by lia. rewrite send_ok by lia. reflexivity.
    + apply frame_to; exact MB.
    + cbn [step]. rewrite (reader_frame A B) by (try assumption; lia). rewrite TB3, N2Z.id, FB. cbn [r_addr r_sap].
      destruct (N.eqb_spec x 1); [lia|]. cbn [andb]. destruct (N.leb_spec 64 y); [lia|]. destruct (Z.ltb_spec (Z.of_N fb) 0); [lia|].
      rewrite Z.eqb_refl, N.eqb_refl. cbn [negb orb]. rewrite N2Z.id. reflexivity.
  - exists (frame B (me A) (reverse_bits x) (reverse_bits y) p). split; [|split].
    + cbn [step]. rewrite FB. cbn [r_addr r_sap sap]. rewrite !u8_of_N by lia. rewrite send_ok by lia. reflexivity.
    + apply frame_to; exact MA.
    + cbn [step]. rewrite (reader_frame B A) by (try assumption; lia). rewrite TA3, N2Z.id, FA. cbn [r_addr r_sap].
      destruct (N.eqb_spec y 1); [lia|]. cbn [andb]. destruct (N.leb_spec 64 x); [lia|]. destruct (Z.ltb_spec (Z.of_N fa) 0); [lia|].
      rewrite Z.eqb_refl, N.eqb_refl. cbn [negb orb]. rewrite N2Z.id. reflexivity.
Qed.

(** ** Isolation *)
Variable c : cfg.

(** A packet is delivered only if its frame came from the peer of the flow and
    from the SAP of the peer. *)
Theorem llc_delivered_from_peer : forall s f stale junk s' fd p, whole c f ->
  step L c s (Recv f stale junk) = (s', [Delivered fd p]) ->
  from_of f = r_addr (tbl s fd) /\ Z.of_N (reverse_bits (ssap_of f)) = r_sap (tbl s fd) /\
  to_fd s (reverse_bits (dsap_of f)) = Z.of_N fd /\ reverse_bits (dsap_of f) < 64.
Proof.
  intros s f stale junk s' fd p W H. cbn [step] in H. rewrite reader_whole in H by exact W.
  destruct (1535 <? says f); [discriminate H|].
  destruct ((reverse_bits (ssap_of f) =? 1) && (reverse_bits (dsap_of f) =? 1)); [destruct (2048 <? len_of f); discriminate H|].
  destruct (N.leb_spec 64 (reverse_bits (dsap_of f))) as [D|D]; [discriminate H|]. cbv zeta in H.
  destruct (Z.ltb_spec (to_fd s (reverse_bits (dsap_of f))) 0) as [Z|Z]; [discriminate H|].
  destruct (Z.eqb_spec (r_sap (tbl s (Z.to_N (to_fd s (reverse_bits (dsap_of f)))))) (Z.of_N (reverse_bits (ssap_of f)))) as [S|S]; [|discriminate H].
  destruct (N.eqb_spec (r_addr (tbl s (Z.to_N (to_fd s (reverse_bits (dsap_of f)))))) (from_of f)) as [A|A]; [|discriminate H].
  cbn [negb orb] in H. destruct (mtu c + 288 <? len_of f); [discriminate H|]. injection H as _ <- _.
  rewrite <- S, <- A, Z2N.id by exact Z. repeat split. exact D.
Qed.

(** What holds after an orderly history: SAPs and flows correspond. *)
Record inv (s : st) : Prop := {
  i_ef : forall fd, opened s fd -> exists x, sap (tbl s fd) = Z.of_N x /\ 2 <= x < 64 /\ In x (used s) /\ to_fd s x = Z.of_N fd;
  i_fd : forall x, to_fd s x = (-1)%Z \/ (2 <= x < 64 /\ exists fd, to_fd s x = Z.of_N fd /\ sap (tbl s fd) = Z.of_N x);
  i_used : forall x, In x (used s) -> (0 <= to_fd s x)%Z
}.
Lemma inv_ext : forall s s', used s' = used s -> to_fd s' = to_fd s -> (forall fd, sap (tbl s' fd) = sap (tbl s fd)) -> inv s -> inv s'.
Proof.
  intros s s' U T B [I1 I2 I3]. constructor.
  - intros fd O. unfold opened in O. rewrite B in O. rewrite B, U, T. apply I1, O.
  - intros x. rewrite T. destruct (I2 x) as [E|(R & fd & E & S)]; [left; exact E|right; split; [exact R|]]. exists fd. rewrite B. split; assumption.
  - intros x X. rewrite U in X. rewrite T. apply I3, X.
Qed.
Lemma inv_open : forall s fd x rs ra, inv s -> ~ opened s fd -> alloc_sap s = Some x -> x < 64 ->
  inv (set_fd (set_ef (set_used s (x :: used s)) fd (Ef (Z.of_N x) rs ra)) x (Z.of_N fd)).
Proof.
  intros s fd x rs ra [I1 I2 I3] NO AX X64. destruct (alloc_range s x AX) as (XR & XN). unfold opened in *.
  constructor; cbn [used to_fd tbl set_fd set_ef set_used].
  - intros f O. unfold opened in O. cbn [tbl set_fd set_ef set_used] in O. destruct (N.eqb_spec f fd) as [E|E].
    + subst f. exists x. cbn [sap]. rewrite N.eqb_refl. split; [reflexivity|]. split; [lia|]. split; [left; reflexivity|reflexivity].
    + destruct (I1 f O) as (y & S & Y & U & T). exists y. split; [exact S|]. split; [exact Y|]. split; [right; exact U|].
      destruct (N.eqb_spec y x) as [Z|Z]; [subst y; contradiction|exact T].
  - intros y. destruct (N.eqb_spec y x) as [E|E].
    + subst y. right. split; [lia|]. exists fd. rewrite N.eqb_refl. split; reflexivity.
    + destruct (I2 y) as [T|(Y & f & T & S)]; [left; exact T|]. right. split; [exact Y|]. exists f. split; [exact T|].
      destruct (N.eqb_spec f fd) as [Z|Z]; [|exact S]. subst f. exfalso. apply NO. rewrite S. lia.
  - intros y [E|E].
    + subst y. rewrite N.eqb_refl. lia.
    + destruct (N.eqb_spec y x); [lia|apply I3, E].
Qed.
Lemma inv_close : forall s fd x e, inv s -> sap (tbl s fd) = Z.of_N x -> x < 64 -> sap e = (-1)%Z -> 2 <= x ->
  inv (set_fd (set_ef (release s (Z.of_N x)) fd e) x (-1)).
Proof.
  intros s fd x e [I1 I2 I3] S X64 E X2. unfold release. destruct (Z.ltb_spec (Z.of_N x) 2); [lia|]. destruct (Z.ltb_spec 66 (Z.of_N x)); [lia|].
  cbn [orb]. unfold opened in *. constructor; cbn [used to_fd tbl set_fd set_ef set_used].
  - intros f O. unfold opened in O. cbn [tbl set_fd set_ef set_used] in O. destruct (N.eqb_spec f fd) as [F|F]; [rewrite E in O; elim O; reflexivity|].
    destruct (I1 f O) as (y & Sy & Y & U & T). exists y.
    assert (YX : y <> x).
    { intros Z. subst y. assert (O' : sap (tbl s fd) <> (-1)%Z) by (rewrite S; lia). destruct (I1 fd O') as (z & Sz & _ & _ & Tz).
      assert (z = x) by lia. subst z. rewrite T in Tz. lia. }
    split; [exact Sy|]. split; [exact Y|]. split.
    + apply filter_In. split; [exact U|]. rewrite N2Z.id. destruct (N.eqb_spec y x); [contradiction|reflexivity].
    + destruct (N.eqb_spec y x); [contradiction|exact T].
  - intros y. destruct (N.eqb_spec y x) as [Z|Z]; [left; reflexivity|].
    destruct (I2 y) as [T|(Y & f & T & Sy)]; [left; exact T|]. right. split; [exact Y|]. exists f. split; [exact T|].
    destruct (N.eqb_spec f fd) as [F|F]; [|exact Sy]. subst f. lia.
  - intros y U. apply filter_In in U. destruct U as (U & NE). rewrite N2Z.id in NE. destruct (N.eqb_spec y x) as [Z|Z]; [discriminate NE|apply I3, U].
Qed.

Lemma step_inv : forall s e, inv s -> tame L c s e -> inv (fst (step L c s e)).
Proof.
  intros s e I (NC & NR & T). destruct e as [h|h|h a|fd h q data j|f stale junk|fd|fd r data j|fd p|fd].
  - apply (inv_ext s); try reflexivity. exact I.
  - apply (inv_ext s); try reflexivity. exact I.
  - apply (inv_ext s); try reflexivity. exact I.
  - cbn [step] in *. destruct (ShimModel.find_any _ _) as [a|]; [|exact I]. destruct (alloc_sap s) as [x|] eqn:AX; [|exact I].
    unfold MAX_SAPS in *. destruct (N.leb_spec 64 x) as [X|X]; [exact I|].
    pose proof (inv_open s fd x (r_sap (tbl s fd)) (r_addr (tbl s fd)) I T AX X) as I1.
    destruct (send_mgmt c a (enc_req x h q data j)); cbn [fst]; [exact I1|].
    apply inv_close; [exact I1|cbn; rewrite N.eqb_refl; reflexivity|exact X|reflexivity|]. apply (alloc_range s x AX).
  - cbn [step]. destruct (reader c s f stale junk); cbn [fst]; try exact I. apply (inv_ext s); try reflexivity. exact I.
  - cbn [step] in *. destruct (frames s) as [|[[src buf] len] fs]; [exact I|]. set (s0 := St (used s) (to_fd s) (tbl s) (names s) fs) in *.
    assert (I0 : inv s0) by (apply (inv_ext s); try reflexivity; exact I). clearbody s0. unfold mgmt in *.
    destruct (g buf o_code 1 =? FLOW_REQ).
    { destruct (Nat.ltb len (MSG + L)); [exact I0|]. destruct (ShimModel.find_reg _ _); [|exact I0]. destruct fd as [fd|]; [|exact I0].
      cbn [fst]. apply (inv_ext s0); try reflexivity; [|exact I0]. intros f. cbn. destruct (N.eqb_spec f fd) as [E|E]; [subst f|]; reflexivity. }
    destruct (g buf o_code 1 =? FLOW_REPLY); [|exact I0]. destruct (Nat.ltb len MSG); [exact I0|].
    destruct (MAX_SAPS <=? g buf o_dsap 1); [exact I0|]. destruct (to_fd s0 (g buf o_dsap 1) <? 0)%Z; [exact I0|].
    set (k := Z.to_N (to_fd s0 (g buf o_dsap 1))) in *.
    destruct (Z.eqb_spec (of_i8 (g buf o_response 1)) 0) as [R|R]; cbn [fst].
    + apply (inv_ext s0); try reflexivity; [|exact I0]. intros f. cbn. destruct (N.eqb_spec f k) as [E|E]; [subst f|]; reflexivity.
    + elim R. apply (NR k _ (firstn (len - MSG) (skipn MSG buf))). left. reflexivity.
  - cbn [step] in *. destruct (alloc_sap s) as [x|] eqn:AX; [|exact I].
    unfold MAX_SAPS in *. destruct (N.leb_spec 64 x) as [X|X]; [exact I|]. destruct T as (T & NF).
    pose proof (inv_open s fd x (r_sap (tbl s fd)) (r_addr (tbl s fd)) I T AX X) as I1.
    destruct (send_mgmt c _ _); cbn [fst snd] in *; [exact I1|]. elim NF. left. reflexivity.
  - exact I.
  - cbn [step] in *. unfold MAX_SAPS in *. destruct (N.leb_spec 64 (u8 (sap (tbl s fd)))) as [X|X]; [exact I|]. cbn [fst].
    assert (O : opened s fd) by (intros E; rewrite E in X; vm_compute in X; discriminate X).
    destruct (i_ef s I fd O) as (x & S & XR & _). rewrite S in *. rewrite u8_of_N in * by lia.
    apply inv_close; [exact I|exact S|lia|reflexivity|lia].
Qed.
Theorem orderly_inv : forall h, orderly L c h -> inv (fst (run L c h)).
Proof.
  induction h as [|e h IH]; intros O.
  - constructor; cbn.
    + intros fd X. elim X. reflexivity.
    + intros x. left. reflexivity.
    + intros x X. elim X.
  - destruct O as (O & T). specialize (IH O). cbn [run]. destruct (run L c h) as [s o]. cbn [fst] in *.
    pose proof (step_inv s e IH T) as I. destruct (step L c s e) as [s' o']. exact I.
Qed.

(** After an orderly history no two flows share a SAP, and a packet is delivered
    only on the flow whose SAP it is for and from the SAP and node of its
    peer. *)
Theorem llc_saps_distinct_partial : forall h fd1 fd2, orderly L c h -> let s := fst (run L c h) in
  opened s fd1 -> opened s fd2 -> sap (tbl s fd1) = sap (tbl s fd2) -> fd1 = fd2.
Proof.
  intros h fd1 fd2 O s O1 O2 E. pose proof (orderly_inv h O) as I. fold s in I.
  destruct (i_ef s I fd1 O1) as (x & S1 & _ & _ & T1). destruct (i_ef s I fd2 O2) as (y & S2 & _ & _ & T2).
  assert (x = y) by lia. subst y. lia.
Qed.
Theorem llc_right_flow_partial : forall h f stale junk s' fd p, orderly L c h -> whole c f -> let s := fst (run L c h) in
  step L c s (Recv f stale junk) = (s', [Delivered fd p]) ->
  sap (tbl s fd) = Z.of_N (reverse_bits (dsap_of f)) /\ r_sap (tbl s fd) = Z.of_N (reverse_bits (ssap_of f)) /\
  r_addr (tbl s fd) = from_of f.
Proof.
  intros h f stale junk s' fd p O W s H. pose proof (orderly_inv h O) as I. fold s in I.
  destruct (llc_delivered_from_peer s f stale junk s' fd p W H) as (A & B & C & D).
  destruct (i_fd s I (reverse_bits (dsap_of f))) as [T|(_ & k & T & S)]; [lia|]. assert (k = fd) by lia. subst k. auto.
Qed.
(** And the end of one flow does not disturb another. *)
Theorem llc_dealloc_others_partial : forall h fd1 fd2 f stale junk s1 p, orderly L c h -> whole c f -> fd1 <> fd2 ->
  let s := fst (run L c h) in opened s fd1 ->
  step L c s (Recv f stale junk) = (s1, [Delivered fd2 p]) ->
  exists s2, step L c s (Dealloc fd1) = (s2, []) /\ step L c s2 (Recv f stale junk) = (s2, [Delivered fd2 p]).
Proof.
  intros h fd1 fd2 f stale junk s1 p O W NE s O1 H. pose proof (orderly_inv h O) as I. fold s in I.
  destruct (llc_right_flow_partial h f stale junk s1 fd2 p O W H) as (A & B & C). fold s in A, B, C.
  destruct (llc_delivered_from_peer s f stale junk s1 fd2 p W H) as (_ & _ & T & D).
  destruct (i_ef s I fd1 O1) as (x & S1 & XR & _ & T1).
  assert (XD : x <> reverse_bits (dsap_of f)) by (intros E; subst x; rewrite T in T1; lia).
  cbn [step]. rewrite S1, u8_of_N by lia. unfold MAX_SAPS. destruct (N.leb_spec 64 x); [lia|]. eexists. split; [reflexivity|].
  set (s2 := set_fd _ _ _). assert (T2 : to_fd s2 (reverse_bits (dsap_of f)) = to_fd s (reverse_bits (dsap_of f))).
  { unfold s2, release. destruct ((Z.of_N x <? 2)%Z || (66 <? Z.of_N x)%Z); cbn; destruct (N.eqb_spec (reverse_bits (dsap_of f)) x); congruence. }
  assert (B2 : tbl s2 fd2 = tbl s fd2).
  { unfold s2, release. destruct ((Z.of_N x <? 2)%Z || (66 <? Z.of_N x)%Z); cbn; destruct (N.eqb_spec fd2 fd1); congruence. }
  clearbody s2. cbn [step] in H. rewrite reader_whole in H |- * by exact W. cbv zeta in *. rewrite T2, T, N2Z.id in *. rewrite B2.
  destruct (1535 <? says f); [discriminate H|].
  destruct ((reverse_bits (ssap_of f) =? 1) && (reverse_bits (dsap_of f) =? 1)); [destruct (2048 <? len_of f); discriminate H|].
  destruct (64 <=? reverse_bits (dsap_of f)); [discriminate H|]. destruct (Z.of_N fd2 <? 0)%Z; [discriminate H|].
  destruct (negb _ || negb _); [discriminate H|]. destruct (mtu c + 288 <? len_of f); [discriminate H|].
  rewrite N2Z.id in *. injection H as _ <-. reflexivity.
Qed.

(** ** What breaks the IPCP *)
Theorem llc_reader_breaks : forall s f stale junk, whole c f ->
  ((exists s' o, step L c s (Recv f stale junk) = (s', o) /\ In Crashed o) <->
   says f <= 1535 /\
   (reverse_bits (ssap_of f) = 1 /\ reverse_bits (dsap_of f) = 1 /\ says f < 3 \/
    (reverse_bits (ssap_of f) <> 1 \/ reverse_bits (dsap_of f) <> 1) /\
    (64 <= reverse_bits (dsap_of f) \/
     exists fd, to_fd s (reverse_bits (dsap_of f)) = Z.of_N fd /\ reverse_bits (dsap_of f) < 64 /\
       r_sap (tbl s fd) = Z.of_N (reverse_bits (ssap_of f)) /\ r_addr (tbl s fd) = from_of f /\
       mtu c + 288 < (says f + 65533) mod 65536))).
Proof.
  intros s f stale junk W. cbn [step]. rewrite reader_whole by exact W. cbv zeta. fold (len_of f).
  set (d := reverse_bits (dsap_of f)). set (b := reverse_bits (ssap_of f)).
  destruct (N.ltb_spec 1535 (says f)) as [X|X].
  { split; [intros (s' & o & O & J); injection O as _ <-; elim J|]. intros (Y & _). lia. }
  assert (LE : 2048 < len_of f <-> says f < 3).
  { unfold len_of. destruct (N.lt_ge_cases (says f) 3) as [Y|Y].
    - rewrite N.mod_small by lia. lia.
    - replace (says f + 65533) with (says f - 3 + 1 * 65536) by lia. rewrite N.mod_add by lia. rewrite N.mod_small by lia. lia. }
  destruct (N.eqb_spec b 1) as [B|B], (N.eqb_spec d 1) as [D|D]; cbn [andb].
  { destruct (N.ltb_spec 2048 (len_of f)) as [Y|Y].
    - split; [intros _; split; [exact X|left; repeat split; try assumption; apply LE, Y]|]. intros _. eexists. eexists. split; [reflexivity|left; reflexivity].
    - split; [intros (s' & o & O & J); injection O as _ <-; elim J|].
      intros (_ & [(_ & _ & Z)|([Z|Z] & _)]); try contradiction. apply LE in Z. lia. }
  all: destruct (N.leb_spec 64 d) as [Y|Y].
  1,3,5: split; [intros _; split; [exact X|right; split; [auto|left; exact Y]]|intros _; eexists; eexists; split; [reflexivity|left; reflexivity]].
  all: destruct (Z.ltb_spec (to_fd s d) 0) as [N|N];
    [split; [intros (s' & o & O & J); injection O as _ <-; elim J|intros (_ & [(Z1 & Z2 & _)|(_ & [Z|(fd & Z & _)])]); try contradiction; lia]|].
  all: set (k := Z.to_N (to_fd s d)); assert (K : to_fd s d = Z.of_N k) by (unfold k; rewrite Z2N.id; [reflexivity|exact N]).
  all: destruct (Z.eqb_spec (r_sap (tbl s k)) (Z.of_N b)) as [E1|E1]; cbn [negb orb];
    [|split; [intros (s' & o & O & J); injection O as _ <-; elim J|
       intros (_ & [(Z1 & Z2 & _)|(_ & [Z|(fd & Z & _ & Z3 & _)])]); try contradiction; try lia; assert (fd = k) by lia; subst fd; contradiction]].
  all: destruct (N.eqb_spec (r_addr (tbl s k)) (from_of f)) as [E2|E2]; cbn [negb];
    [|split; [intros (s' & o & O & J); injection O as _ <-; elim J|
       intros (_ & [(Z1 & Z2 & _)|(_ & [Z|(fd & Z & _ & _ & Z3 & _)])]); try contradiction; try lia; assert (fd = k) by lia; subst fd; contradiction]].
  all: destruct (N.ltb_spec (mtu c + 288) (len_of f)) as [G|G];
    [split; [intros _; split; [exact X|right; split; [auto|right; exists k; repeat split; assumption]]|
       intros _; eexists; eexists; split; [reflexivity|left; reflexivity]]|
     split; [intros (s' & o & O & J); injection O as _ <-; destruct J as [J|[]]; discriminate J|
       intros (_ & [(Z1 & Z2 & _)|(_ & [Z|(fd & Z & _ & _ & _ & Z3)])]); try contradiction; lia]].
Qed.

(** A flow that is deallocated before it got a SAP makes the IPCP write outside
    its table. *)
Theorem llc_dealloc_breaks : forall s fd, sap (tbl s fd) = (-1)%Z ->
  step L c s (Dealloc fd) = (s, [Crashed]).
Proof. intros s fd H. cbn [step]. rewrite H. reflexivity. Qed.
(** So does the flow after those that use all SAPs below 64, and only that. *)
Theorem llc_capacity : forall s fd h q data j a, ShimModel.find_any (ShimModel.directory (names s)) h = Some a ->
  (snd (step L c s (Alloc fd h q data j)) = [Crashed] <->
   (forall x, 2 <= x < 64 -> In x (used s)) /\ (~ In 64 (used s) \/ ~ In 65 (used s))).
Proof.
  intros s fd h q data j a H. cbn [step]. rewrite H, alloc_eq.
  pose proof (mem_in) as MEM. pose proof (free_in (used s)) as FR.
  destruct (free_from (used s)) as [|x t] eqn:E; cbn [hd_error].
  - cbn [snd]. split; [intros X; discriminate X|]. intros (_ & [X|X]); exfalso.
    + apply (proj2 (FR 64)). split; [lia|exact X].
    + apply (proj2 (FR 65)). split; [lia|exact X].
  - pose proof (proj1 (FR x) (or_introl eq_refl)) as (XR & XN). pose proof (free_low (used s) x t E) as XL.
    unfold MAX_SAPS. destruct (N.leb_spec 64 x) as [X|X].
    + cbn [snd]. split; [|reflexivity]. intros _. split.
      * intros y Y. destruct (existsb (N.eqb y) (used s)) eqn:M; [apply MEM, M|]. exfalso.
        assert (I : In y (x :: t)) by (apply FR; split; [lia|intros U; apply MEM in U; congruence]).
        destruct I as [I|I]; [lia|]. specialize (XL y I). lia.
      * assert (x = 64 \/ x = 65) as [-> | ->] by lia; [left|right]; exact XN.
    + split; [|intros (A & _); elim XN; apply A; lia].
      intros C. destruct (send_mgmt c a _); cbn [snd] in C; discriminate C.
Qed.
End L.

(** ** A refusal *)
Definition node := Cfg 1 1500.
Definition qos0 := QS 0 0 0 0 0 0 0 0 0.
Definition answer (x y : N) (r : Z) := frame (Cfg 5 1500) 1 (reverse_bits 1) (reverse_bits 1) (enc_reply x y r [] (repeat 0 32)).
Definition after_refusal : list ev :=
  [Handle None; Recv (answer 9 2 0) [] []; Alloc 71 [7] qos0 [] [0; 0];
   Handle None; Recv (answer 0 2 (-1)) [] []; Alloc 70 [7] qos0 [] [0; 0]; Learn [7] 5].
(** After a refusal the SAP is given to another flow while the refused flow
    still has it; the end of the refused flow then cuts off the other. *)
Theorem llc_dealloc_others_refuted :
  ~ (forall h fd1 fd2 f stale junk s1 p s2, whole node f -> fd1 <> fd2 ->
       let s := fst (run 1 node h) in opened s fd1 ->
       step 1 node s (Recv f stale junk) = (s1, [Delivered fd2 p]) ->
       step 1 node s (Dealloc fd1) = (s2, []) -> step 1 node s2 (Recv f stale junk) = (s2, [Delivered fd2 p])).
Proof.
  intros F. specialize (F after_refusal 70 71 (frame (Cfg 5 1500) 1 (reverse_bits 2) (reverse_bits 9) [1; 2]) [] []
    (fst (run 1 node after_refusal)) [1; 2]
    (fst (step 1 node (fst (run 1 node after_refusal)) (Dealloc 70)))).
  assert (X : snd (step 1 node (fst (step 1 node (fst (run 1 node after_refusal)) (Dealloc 70)))
                    (Recv (frame (Cfg 5 1500) 1 (reverse_bits 2) (reverse_bits 9) [1; 2]) [] [])) = [Delivered 71 [1; 2]]).
  { rewrite F; [reflexivity| | | | |].
    - split; vm_compute; discriminate.
    - discriminate.
    - vm_compute. discriminate.
    - vm_compute. reflexivity.
    - vm_compute. reflexivity. }
  vm_compute in X. discriminate X.
Qed.
(** And two flows that are open at once have the same SAP. *)
Theorem llc_saps_distinct_refuted :
  ~ (forall h fd1 fd2, (forall e, In e h -> match e with Dealloc _ | Respond _ _ _ _ => False | _ => True end) ->
       let s := fst (run 1 node h) in opened s fd1 -> opened s fd2 -> sap (tbl s fd1) = sap (tbl s fd2) -> fd1 = fd2).
Proof.
  intros F. specialize (F after_refusal 70 71). assert (X : 70 = 71); [|discriminate X]. apply F.
  - intros e E. repeat (destruct E as [<-|E]; [exact Logic.I|]). elim E.
  - vm_compute. discriminate.
  - vm_compute. discriminate.
  - vm_compute. reflexivity.
Qed.

(** ** Cases *)
Definition opens (n : nat) : list ev := map (fun k => Alloc (N.of_nat k) [7] qos0 [] [0; 0]) (rev (seq 70 n)) ++ [Learn [7] 5].
Example llc_cases :
  cfg_ok node /\
  (* an orderly history with two flows, one of which gets a packet *)
  (let h := [Handle None; Recv (answer 9 3 0) [] []; Alloc 71 [7] qos0 [] [0; 0]; Alloc 70 [7] qos0 [] [0; 0]; Learn [7] 5] in
   orderly 1 node h /\ opened (fst (run 1 node h)) 70 /\
   snd (step 1 node (fst (run 1 node h)) (Recv (frame (Cfg 5 1500) 1 (reverse_bits 3) (reverse_bits 9) [1; 2]) [] [])) = [Delivered 71 [1; 2]]) /\
  (* 62 flows work, the next breaks the IPCP *)
  last (snd (run 1 node (opens 62))) Failed <> Crashed /\ last (snd (run 1 node (opens 63))) Failed = Crashed.
Proof.
  split; [split; [reflexivity|split; vm_compute; discriminate]|].
  split.
  { cbv zeta. split; [|split; [vm_compute; discriminate|vm_compute; reflexivity]].
    assert (T : forall s e, existsb (fun x => match x with Crashed => true | Answered _ r _ => negb (r =? 0)%Z | _ => false end) (snd (step 1 node s e)) = false ->
      match e with Alloc fd _ _ _ _ => sap (tbl s fd) = (-1)%Z | Respond _ _ _ _ => False | _ => True end -> tame 1 node s e).
    { intros s e X Y. unfold tame. cbv zeta. assert (Z : forall x, In x (snd (step 1 node s e)) ->
        match x with Crashed => true | Answered _ r _ => negb (r =? 0)%Z | _ => false end = false).
      { intros x I. destruct (match x with Crashed => true | Answered _ r _ => negb (r =? 0)%Z | _ => false end) eqn:E; [|reflexivity].
        assert (W : existsb (fun x => match x with Crashed => true | Answered _ r _ => negb (r =? 0)%Z | _ => false end) (snd (step 1 node s e)) = true)
          by (apply existsb_exists; exists x; split; assumption). congruence. }
      split; [intros I; specialize (Z _ I); discriminate Z|]. split.
      - intros fd r data I. specialize (Z _ I). cbn in Z. apply negb_false_iff, Z.eqb_eq in Z. exact Z.
      - destruct e; try exact Logic.I; [intros O; apply O, Y|elim Y]. }
    cbn [orderly]. do 4 (split; [|apply T; [vm_compute; reflexivity|try exact Logic.I; vm_compute; reflexivity]]).
    split; [exact Logic.I|apply T; [vm_compute; reflexivity|exact Logic.I]]. }
  split; [vm_compute; discriminate|vm_compute; reflexivity].
Qed.

Print Assumptions llc_sap_bits.
Print Assumptions llc_flow_works_partial.
Print Assumptions llc_delivered_from_peer.
Print Assumptions llc_saps_distinct_partial.
Print Assumptions llc_right_flow_partial.
Print Assumptions llc_dealloc_others_partial.
Print Assumptions llc_reader_breaks.
Print Assumptions llc_dealloc_breaks.
Print Assumptions llc_capacity.
Print Assumptions llc_dealloc_others_refuted.
Print Assumptions llc_saps_distinct_refuted.
