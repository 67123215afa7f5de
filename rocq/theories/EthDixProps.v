(** Theorems about the IPCP over DIX Ethernet (C95, C96). *)
From Coq Require Import List Arith NArith ZArith Bool Lia ZifyBool ZifyNat ZifyN.
From Verif Require Import Bytes.
From Verif Require UdpModel UdpSpec UdpProps ShimModel.
From Verif Require Import EthDixModel EthDixSpec.
Import ListNotations.
Open Scope N_scope.

Ltac lens := rewrite ?app_length, ?be_length, ?le_length; cbn [length]; lia.
Ltac field :=
  repeat (rewrite UdpProps.g_skip by lens);
  match goal with |- UdpModel.g (_ ++ _) ?o _ = _ => replace o with 0%nat by lens end; rewrite UdpProps.g_here by lens.

Lemma skip_app : forall (a b : list N) k, (length a <= k)%nat -> skipn k (a ++ b) = skipn (k - length a) b.
Proof. intros a b k H. rewrite skipn_app, (skipn_all2 a) by exact H. reflexivity. Qed.
Ltac skips := repeat (rewrite skip_app by lens);
  match goal with |- skipn ?o _ = _ => replace o with 0%nat by lens end; reflexivity.

(** ** The fields of a frame *)
Lemma g_at : forall f k n, (k + n <= length f)%nat -> g f k n = unbe (firstn n (skipn k f)).
Proof. intros f k n H. unfold UdpModel.g, get. destruct (Nat.leb_spec (k + n) (length f)); [reflexivity|lia]. Qed.
Lemma g_app_l : forall a b k n, (k + n <= length a)%nat -> g (a ++ b) k n = g a k n.
Proof.
  intros a b k n H. rewrite !g_at by (rewrite ?app_length; lia).
  rewrite skipn_app, firstn_app, skipn_length. replace (n - (length a - k))%nat with 0%nat by lia.
  cbn [firstn]. rewrite app_nil_r. reflexivity.
Qed.

(** A frame of the writer, as the reader sees it. *)
Definition frame (c : cfg) (dst eid : N) (p : list N) : list N :=
  be 6 dst ++ be 6 (me c) ++ be 2 (et c) ++ be 2 eid ++ be 2 (N.of_nat (length p)) ++ p.
Lemma send_ok : forall c dst eid p, N.of_nat (length p) <= mtu c - 4 -> send c dst eid p = Some (frame c dst eid p).
Proof. intros c dst eid p H. unfold send. destruct (N.ltb_spec (mtu c - 4) (N.of_nat (length p))) as [X|X]; [lia|reflexivity]. Qed.
Lemma send_no : forall c dst eid p, mtu c - 4 < N.of_nat (length p) -> send c dst eid p = None.
Proof. intros c dst eid p H. unfold send. destruct (N.ltb_spec (mtu c - 4) (N.of_nat (length p))) as [X|X]; [reflexivity|lia]. Qed.

Lemma frame_len : forall c dst eid p, length (frame c dst eid p) = (18 + length p)%nat.
Proof. intros. unfold frame. rewrite !app_length, !be_length. lia. Qed.
Lemma pow2 : forall n, 256 ^ N.of_nat n = 2 ^ (8 * N.of_nat n).
Proof. intros n. rewrite N.pow_mul_r. reflexivity. Qed.

Lemma frame_fields : forall c dst eid p stale, cfg_ok c -> eid < 2 ^ 16 -> N.of_nat (length p) < 2 ^ 16 ->
  let m := frame c dst eid p ++ stale in
  g m 6 6 = me c /\ g m 12 2 = et c /\ g m 14 2 = eid /\ g m 16 2 = N.of_nat (length p) /\
  skipn HEADER m = p ++ stale.
Proof.
  intros c dst eid p stale (M & E & _) I P m. unfold mac_ok in M. unfold m, frame. rewrite <- !app_assoc.
  split; [field; apply unbe_be; rewrite pow2; exact M|].
  split; [field; apply unbe_be; rewrite pow2; exact E|].
  split; [field; apply unbe_be; rewrite pow2; exact I|].
  split; [field; apply unbe_be; rewrite pow2; exact P|].
  rewrite !app_assoc. rewrite <- (app_assoc _ p stale). apply UdpProps.skipn_app_len. rewrite !app_length, !be_length. reflexivity.
Qed.

Lemma reader_frame : forall c c' dst eid p stale junk reuse, cfg_ok c -> cfg_ok c' -> et c = et c' ->
  eid < 2 ^ 16 -> N.of_nat (length p) <= mtu c' -> N.of_nat (length p) < 2 ^ 16 ->
  reader c' (frame c dst eid p) stale reuse junk =
  if eid =? 0 then
    if 2048 <? N.of_nat (length p) then Overrun
    else match reuse with
         | None => ToMgmt (me c) (p ++ junk) (length p)
         | Some m => ToMgmt (g m 6 6) (firstn (length p) (skipn HEADER m) ++ junk) (length p)
         end
  else if 10240 <=? eid then Overrun else ToFlow eid p.
Proof.
  intros c c' dst eid p stale junk reuse OC OC' T I P P2.
  destruct (frame_fields c dst eid p stale OC I P2) as (F1 & F2 & F3 & F4 & F5).
  unfold reader. rewrite UdpProps.firstn_short by (rewrite frame_len; unfold HEADER; lia).
  destruct (frame c dst eid p) as [|x t] eqn:E.
  { pose proof (frame_len c dst eid p) as Y. rewrite E in Y. cbn in Y. lia. }
  rewrite F2, F3, F4, T, N.eqb_refl, Nat2N.id. cbn [negb]. cbv iota.
  unfold MGMT_EID, MGMT_FRAME_SIZE, SYS_MAX_FLOWS, DU_BUFF_OVERHEAD. destruct (N.eqb_spec eid 0) as [Z|Z].
  - destruct (2048 <? N.of_nat (length p)); [reflexivity|]. destruct reuse as [m|]; [reflexivity|].
    rewrite F1, F5, UdpProps.firstn_app_len by reflexivity. reflexivity.
  - destruct (N.ltb_spec (mtu c' + 288) (N.of_nat (length p))) as [X|X]; [lia|].
    rewrite F5, UdpProps.firstn_app_len by reflexivity. reflexivity.
Qed.

(** ** Messages *)
Section L.
Variable L : nat.

Lemma mgmt_req : forall c s src eid hash q data j junk fd j', length hash = L -> UdpSpec.qos_ok q -> length j = 3%nat -> eid < 2 ^ 16 ->
  ShimModel.find_reg (ShimModel.registry (names s)) hash = true ->
  mgmt L c s src (enc_req eid hash q data j ++ junk) (length (enc_req eid hash q data j)) (Some fd) j' =
  (St (upd (tbl s) fd (Ef (Z.of_N eid) src)) (names s) (frames s), [Asked hash q data]).
Proof.
  intros c s src eid hash q data j junk fd j' H (Q1 & Q2 & Q3 & Q4 & Q5 & Q6 & Q7 & Q8 & Q9) J I R.
  unfold mgmt, enc_req. set (a := firstn 2 j). set (b := skipn 2 j).
  assert (A : length a = 2%nat) by (unfold a; rewrite firstn_length; lia).
  assert (B : length b = 1%nat) by (unfold b; rewrite skipn_length; lia). clearbody a b. rewrite <- !app_assoc.
  assert (LN : forall t, length (be 2 eid ++ a ++ be 4 (UdpModel.loss q) ++ be 8 (UdpModel.bandwidth q) ++ be 4 (UdpModel.ber q) ++
    be 4 (UdpModel.max_gap q) ++ be 4 (UdpModel.delay q) ++ be 4 (UdpModel.timeout q) ++ be 2 (UdpModel.cypher_s q) ++
    le 1 (UdpModel.in_order q) ++ le 1 FLOW_REQ ++ le 1 (UdpModel.availability q) ++ b ++ hash ++ t) = (38 + L + length t)%nat).
  { intros t. rewrite !app_length, !be_length, !le_length. lia. }
  rewrite LN.
  set (m := be 2 eid ++ a ++ be 4 (UdpModel.loss q) ++ be 8 (UdpModel.bandwidth q) ++ be 4 (UdpModel.ber q) ++
    be 4 (UdpModel.max_gap q) ++ be 4 (UdpModel.delay q) ++ be 4 (UdpModel.timeout q) ++ be 2 (UdpModel.cypher_s q) ++
    le 1 (UdpModel.in_order q) ++ le 1 FLOW_REQ ++ le 1 (UdpModel.availability q) ++ b ++ hash ++ data ++ junk).
  assert (G0 : g m o_code 1 = FLOW_REQ) by (unfold m, o_code; field; apply UdpProps.unbe_le1; reflexivity).
  assert (G1 : g m o_seid 2 = eid) by (unfold m, o_seid; rewrite UdpProps.g_here by lens; apply unbe_be; rewrite pow2; exact I).
  assert (G2 : g m o_delay 4 = UdpModel.delay q) by (unfold m, o_delay; field; apply unbe_be; rewrite pow2; exact Q1).
  assert (G3 : g m o_bandwidth 8 = UdpModel.bandwidth q) by (unfold m, o_bandwidth; field; apply unbe_be; rewrite pow2; exact Q2).
  assert (G4 : g m o_availability 1 = UdpModel.availability q) by (unfold m, o_availability; field; apply UdpProps.unbe_le1; exact Q3).
  assert (G5 : g m o_loss 4 = UdpModel.loss q) by (unfold m, o_loss; field; apply unbe_be; rewrite pow2; exact Q4).
  assert (G6 : g m o_ber 4 = UdpModel.ber q) by (unfold m, o_ber; field; apply unbe_be; rewrite pow2; exact Q5).
  assert (G7 : g m o_in_order 1 = UdpModel.in_order q) by (unfold m, o_in_order; field; apply UdpProps.unbe_le1; exact Q6).
  assert (G8 : g m o_max_gap 4 = UdpModel.max_gap q) by (unfold m, o_max_gap; field; apply unbe_be; rewrite pow2; exact Q7).
  assert (G9 : g m o_cypher_s 2 = UdpModel.cypher_s q) by (unfold m, o_cypher_s; field; apply unbe_be; rewrite pow2; exact Q8).
  assert (G10 : g m o_timeout 4 = UdpModel.timeout q) by (unfold m, o_timeout; field; apply unbe_be; rewrite pow2; exact Q9).
  assert (SK : skipn MSG m = hash ++ data ++ junk) by (unfold m, MSG; skips).
  assert (SK2 : skipn (MSG + L) m = data ++ junk) by (unfold m, MSG; skips).
  clearbody m. rewrite G0, G1, G2, G3, G4, G5, G6, G7, G8, G9, G10, SK, SK2.
  change (FLOW_REQ =? FLOW_REQ) with true. cbv iota.
  destruct (Nat.ltb_spec (38 + L + length data) (MSG + L)) as [X|X]; [unfold MSG in X; lia|].
  rewrite UdpProps.firstn_app_len by exact H. rewrite R.
  rewrite UdpProps.firstn_app_len by (unfold MSG; lia). destruct q; reflexivity.
Qed.

Lemma mgmt_reply : forall c s src seid deid r data j junk fd j', length j = 32%nat -> seid < 2 ^ 16 -> deid < 10240 ->
  (-128 <= r < 128)%Z ->
  mgmt L c s src (enc_reply seid deid r data j ++ junk) (length (enc_reply seid deid r data j)) fd j' =
  (if (r =? 0)%Z then St (upd (tbl s) deid (Ef (Z.of_N seid) src)) (names s) (frames s) else s, [Answered deid r data]).
Proof.
  intros c s src seid deid r data j junk fd j' J S D R.
  unfold mgmt, enc_reply. set (a := firstn 31 j). set (b := skipn 31 j).
  assert (A : length a = 31%nat) by (unfold a; rewrite firstn_length; lia).
  assert (B : length b = 1%nat) by (unfold b; rewrite skipn_length; lia). clearbody a b. rewrite <- !app_assoc.
  assert (LN : length (be 2 seid ++ be 2 deid ++ a ++ le 1 FLOW_REPLY ++ b ++ [to_i8 r] ++ data) = (38 + length data)%nat).
  { rewrite !app_length, !be_length, !le_length, A, B. cbn [length]. lia. }
  rewrite LN. set (m := be 2 seid ++ be 2 deid ++ a ++ le 1 FLOW_REPLY ++ b ++ [to_i8 r] ++ data ++ junk).
  assert (G0 : g m o_code 1 = FLOW_REPLY) by (unfold m, o_code; field; apply UdpProps.unbe_le1; reflexivity).
  assert (G1 : g m o_seid 2 = seid) by (unfold m, o_seid; rewrite UdpProps.g_here by lens; apply unbe_be; rewrite pow2; exact S).
  assert (G2 : g m o_deid 2 = deid) by (unfold m, o_deid; field; apply unbe_be; change (256 ^ N.of_nat 2) with 65536; lia).
  assert (G3 : g m o_response 1 = to_i8 r).
  { unfold m, o_response. field. unfold unbe. cbn [rev app unle]. lia. }
  assert (SK : skipn MSG m = data ++ junk) by (unfold m, MSG; skips).
  clearbody m. rewrite G0, G1, G2, G3, SK, (UdpProps.to_of_i8 r R).
  change (FLOW_REPLY =? FLOW_REQ) with false. change (FLOW_REPLY =? FLOW_REPLY) with true. cbv iota.
  destruct (Nat.ltb_spec (38 + length data) MSG) as [X|X]; [unfold MSG in X; lia|].
  destruct (N.leb_spec SYS_MAX_FLOWS deid) as [Y|Y]; [unfold SYS_MAX_FLOWS in Y; lia|].
  rewrite UdpProps.firstn_app_len by (unfold MSG; lia). reflexivity.
Qed.

Lemma mgmt_query : forall c s src code hash j junk fd j', length hash = L -> length j = 37%nat -> code = 2 \/ code = 3 ->
  mgmt L c s src (enc_query code hash j ++ junk) (length (enc_query code hash j)) fd j' =
  if code =? 2 then
    (s, if ShimModel.find_reg (ShimModel.registry (names s)) hash then sent (send c src 0 (enc_query 3 hash j')) else [])
  else (shim_do s (ShimModel.DirAdd hash src), [Resolved hash]).
Proof.
  intros c s src code hash j junk fd j' H J C. unfold mgmt. set (n := length (enc_query code hash j)). clearbody n.
  set (m := enc_query code hash j ++ junk).
  assert (G0 : g m o_code 1 = code).
  { unfold m, o_code, enc_query. rewrite <- !app_assoc. assert (A : length (firstn 35 j) = 35%nat) by (rewrite firstn_length; lia).
    field. apply UdpProps.unbe_le1. destruct C as [-> | ->]; reflexivity. }
  assert (SK : skipn MSG m = hash ++ junk).
  { unfold m, MSG, enc_query. rewrite <- !app_assoc. assert (A : length (firstn 35 j) = 35%nat) by (rewrite firstn_length; lia).
    assert (B : length (skipn 35 j) = 2%nat) by (rewrite skipn_length; lia). skips. }
  clearbody m. rewrite G0, SK. rewrite UdpProps.firstn_app_len by exact H. destruct C as [-> | ->]; reflexivity.
Qed.

Lemma upd_same : forall f k x, upd f k x k = x.
Proof. intros f k x. unfold upd. rewrite N.eqb_refl. reflexivity. Qed.
Lemma req_len : forall eid h q data j, length h = L -> length j = 3%nat -> length (enc_req eid h q data j) = (38 + L + length data)%nat.
Proof. intros eid h q data j H J. unfold enc_req. rewrite !app_length, !be_length, !le_length, firstn_length, skipn_length. lia. Qed.
Lemma reply_len : forall a b r data j, length j = 32%nat -> length (enc_reply a b r data j) = (38 + length data)%nat.
Proof. intros a b r data j J. unfold enc_reply. rewrite !app_length, !be_length, !le_length, firstn_length, skipn_length. cbn [length]. lia. Qed.
Lemma query_len : forall code h j, length h = L -> length j = 37%nat -> length (enc_query code h j) = (38 + L)%nat.
Proof. intros code h j H J. unfold enc_query. rewrite !app_length, !le_length, firstn_length, skipn_length. lia. Qed.
Lemma eid_back : forall x, x < 10240 -> Z.to_N (Z.of_N x mod 2 ^ 16) = x.
Proof. intros x H. rewrite Z.mod_small by (change (2 ^ 16)%Z with 65536%Z; lia). apply N2Z.id. Qed.

(** ** The life of a flow between two nodes *)

(** Node A asks who has a name; node B, where it is registered, says so; A asks
    for a flow, B's IRMd is asked for it as it was requested, and its answer
    reaches A's IRMd; then every packet that fits the MTUs and is written on one
    end is delivered on the other, and on no other flow.  Whatever the nodes did
    before, whatever memory the buffers hold. *)
Theorem dix_flow_works_partial : forall A B sA sB fa fb h q data r data'
    jq jr ja jb st1 st2 st3 st4 ju1 ju2 ju3 ju4 j1 j2 j3,
  cfg_ok A -> cfg_ok B -> et A = et B -> fd_ok fa -> fd_ok fb -> length h = L -> UdpSpec.qos_ok q ->
  38 + N.of_nat (L + length data) <= 2048 -> 38 + N.of_nat (length data') <= 2048 ->
  38 + N.of_nat (L + length data) <= N.min (mtu A) (mtu B) - 4 -> 38 + N.of_nat (length data') <= N.min (mtu A) (mtu B) - 4 ->
  length jq = 37%nat -> length jr = 37%nat -> length ja = 3%nat -> length jb = 32%nat -> (-128 <= r < 128)%Z ->
  frames sA = [] -> frames sB = [] ->
  ShimModel.find_any (ShimModel.directory (names sA)) h = None ->
  ShimModel.find_reg (ShimModel.registry (names sB)) h = true ->
  exists d1 d2 d3 d4 sA1 sA2 sA3 sA4 sB1 sB2 sB3 sB4,
    (* A asks for the name, B answers *)
    step L A sA (Query h jq) = (sA, [Sent d1]) /\ to_of d1 = 2 ^ 48 - 1 /\
    step L B sB (Recv d1 st1 None ju1) = (sB1, []) /\
    step L B sB1 (Handle None jr) = (sB2, [Sent d2]) /\ to_of d2 = me A /\
    step L A sA (Recv d2 st2 None ju2) = (sA1, []) /\
    step L A sA1 (Handle None j1) = (sA2, [Resolved h]) /\
    (* A asks for a flow, B's IRMd is asked and answers *)
    step L A sA2 (Alloc fa h q data ja) = (sA2, [Sent d3]) /\ to_of d3 = me B /\
    step L B sB2 (Recv d3 st3 None ju3) = (sB3, []) /\
    step L B sB3 (Handle (Some fb) j2) = (sB4, [Asked h q data]) /\
    step L B sB4 (Respond fb r data' jb) = (sB4, [Sent d4]) /\ to_of d4 = me A /\
    step L A sA2 (Recv d4 st4 None ju4) = (sA3, []) /\
    step L A sA3 (Handle None j3) = (sA4, [Answered fa r data']) /\
    (* packets *)
    forall p st ru ju, size p <= N.min (mtu A) (mtu B) - 4 ->
      (r = 0%Z -> exists d, step L A sA4 (Packet fa p) = (sA4, [Sent d]) /\ to_of d = me B /\
                            step L B sB4 (Recv d st ru ju) = (sB4, [Delivered fb p])) /\
      (exists d, step L B sB4 (Packet fb p) = (sB4, [Sent d]) /\ to_of d = me A /\
                 step L A sA4 (Recv d st ru ju) = (sA4, [Delivered fa p])).
Proof.
  intros A B sA sB fa fb h q data r data' jq jr ja jb st1 st2 st3 st4 ju1 ju2 ju3 ju4 j1 j2 j3
    OA OB T FA FB H Q M1 M2 M3 M4 JQ JR JA JB R EA EB NO RE. unfold fd_ok in *.
  pose proof OA as OA'. pose proof OB as OB'. destruct OA' as (MA & EA' & TA). destruct OB' as (MB & EB' & TB). unfold mac_ok in *.
  assert (P16 : 2 ^ 16 = 65536) by reflexivity.
  assert (TO : forall c dst eid p, dst < 2 ^ 48 -> to_of (frame c dst eid p) = dst).
  { intros c dst eid p D. unfold to_of, frame. rewrite UdpProps.firstn_app_len by apply be_length. apply unbe_be. rewrite pow2. exact D. }
  pose proof (query_len 2 h jq H JQ) as LQ. pose proof (query_len 3 h jr H JR) as LR.
  pose proof (req_len fa h q data ja H JA) as LA. pose proof (reply_len fb fa r data' jb JB) as LB.
  set (dA := ShimModel.mk_shim (ShimModel.registry (names sA)) ((h, me B) :: ShimModel.directory (names sA))).
  exists (frame A (2 ^ 48 - 1) 0 (enc_query 2 h jq)), (frame B (me A) 0 (enc_query 3 h jr)),
    (frame A (me B) 0 (enc_req fa h q data ja)), (frame B (me A) 0 (enc_reply fb fa r data' jb)).
  exists (St (tbl sA) (names sA) [(me B, enc_query 3 h jr ++ ju2, length (enc_query 3 h jr))]).
  set (sA2 := shim_do (St (tbl sA) (names sA) []) (ShimModel.DirAdd h (me B))). exists sA2.
  exists (St (tbl sA2) (names sA2) [(me B, enc_reply fb fa r data' jb ++ ju4, length (enc_reply fb fa r data' jb))]).
  set (sA4 := if (r =? 0)%Z then St (upd (tbl sA2) fa (Ef (Z.of_N fb) (me B))) (names sA2) [] else St (tbl sA2) (names sA2) []). exists sA4.
  exists (St (tbl sB) (names sB) [(me A, enc_query 2 h jq ++ ju1, length (enc_query 2 h jq))]), (St (tbl sB) (names sB) []).
  exists (St (tbl sB) (names sB) [(me A, enc_req fa h q data ja ++ ju3, length (enc_req fa h q data ja))]).
  set (sB4 := St (upd (tbl sB) fb (Ef (Z.of_N fa) (me A))) (names sB) []). exists sB4.
  assert (F2 : frames sA2 = []) by reflexivity.
  (* find_dir finds nothing if find_any does not *)
  assert (ND : forall l, ShimModel.find_any l h = None -> ShimModel.find_dir l h (me B) = false).
  { intros l. induction l as [|[x b] l IH]; intros N; [reflexivity|]. cbn [ShimModel.find_any] in N. cbn [ShimModel.find_dir].
    destruct (ShimModel.heqb x h); [discriminate N|]. rewrite andb_false_r. apply IH, N. }
  assert (FIND : ShimModel.find_any (ShimModel.directory (names sA2)) h = Some (me B)).
  { unfold sA2, shim_do. cbn [names ShimModel.step]. rewrite (ND _ NO). cbn [fst ShimModel.directory ShimModel.find_any].
    assert (X : forall x, ShimModel.heqb x x = true) by (induction x as [|y x IH]; [reflexivity|cbn; rewrite N.eqb_refl; exact IH]).
    rewrite X. reflexivity. }
  split; [cbn [step]; rewrite NO; change NAME_QUERY_REQ with 2; rewrite send_ok by lia; reflexivity|].
  split; [apply TO; reflexivity|].
  split; [cbn [step]; rewrite (reader_frame A B) by (try assumption; lia); rewrite EB;
          change (0 =? 0) with true; cbv iota; rewrite LQ; destruct (N.ltb_spec 2048 (N.of_nat (38 + L))); [lia|reflexivity]|].
  split; [cbn [step frames]; rewrite mgmt_query by (auto); change (2 =? 2) with true; cbv iota;
          cbn [names tbl frames]; rewrite RE; rewrite send_ok by lia; reflexivity|].
  split; [apply TO; exact MA|].
  split; [cbn [step]; rewrite (reader_frame B A) by (try assumption; try (symmetry; assumption); lia); rewrite EA;
          change (0 =? 0) with true; cbv iota; rewrite LR; destruct (N.ltb_spec 2048 (N.of_nat (38 + L))); [lia|reflexivity]|].
  split; [cbn [step frames]; rewrite mgmt_query by (auto); reflexivity|].
  split; [cbn [step]; rewrite FIND; rewrite send_ok by lia; reflexivity|].
  split; [apply TO; exact MB|].
  split; [cbn [step]; rewrite (reader_frame A B) by (try assumption; lia); cbn [frames tbl names];
          change (0 =? 0) with true; cbv iota; rewrite LA; destruct (N.ltb_spec 2048 (N.of_nat (38 + L + length data))); [lia|reflexivity]|].
  split; [cbn [step frames tbl names]; rewrite mgmt_req by (try assumption; lia); reflexivity|].
  split; [cbn [step]; unfold sB4; cbn [tbl]; rewrite upd_same; cbn [r_addr r_eid]; rewrite eid_back by lia; rewrite send_ok by lia; reflexivity|].
  split; [apply TO; exact MA|].
  split; [cbn [step]; rewrite (reader_frame B A) by (try assumption; try (symmetry; assumption); lia); rewrite F2;
          change (0 =? 0) with true; cbv iota; rewrite LB; destruct (N.ltb_spec 2048 (N.of_nat (38 + length data'))); [lia|reflexivity]|].
  split; [cbn [step frames tbl names]; rewrite mgmt_reply by (try assumption; lia); reflexivity|].
  intros p st ru ju P. unfold size in P. split.
  - intros R0. exists (frame A (me B) fb p). split; [|split].
    + unfold sA4. rewrite R0. change (0 =? 0)%Z with true. cbv iota. cbn [step tbl]. rewrite upd_same. cbn [r_addr r_eid].
      rewrite eid_back by lia. rewrite send_ok by lia. reflexivity.
    + apply TO; exact MB.
    + cbn [step]. rewrite (reader_frame A B) by (try assumption; lia).
      destruct (N.eqb_spec fb 0); [lia|]. destruct (N.leb_spec 10240 fb); [lia|]. reflexivity.
  - exists (frame B (me A) fa p). split; [|split].
    + unfold sB4. cbn [step tbl]. rewrite upd_same. cbn [r_addr r_eid].
      rewrite eid_back by lia. rewrite send_ok by lia. reflexivity.
    + apply TO; exact MA.
    + cbn [step]. rewrite (reader_frame B A) by (try assumption; try (symmetry; assumption); lia).
      destruct (N.eqb_spec fa 0); [lia|]. destruct (N.leb_spec 10240 fa); [lia|]. reflexivity.
Qed.

(** A packet is sent whole or not at all. *)
Theorem dix_whole_or_nothing : forall c s fd p s' o, step L c s (Packet fd p) = (s', o) ->
  s' = s /\ ((size p <= mtu c - 4 /\ exists f, o = [Sent f] /\ carries f = p /\ length f = (18 + length p)%nat) \/
            (mtu c - 4 < size p /\ o = [Failed])).
Proof.
  intros c s fd p s' o H. cbn [step] in H. injection H as <- <-. split; [reflexivity|]. unfold size.
  destruct (N.leb_spec (N.of_nat (length p)) (mtu c - 4)) as [X|X].
  - left. split; [exact X|]. rewrite send_ok by exact X. eexists. split; [reflexivity|]. split; [|apply frame_len].
    unfold carries, frame. skips.
  - right. split; [exact X|]. rewrite send_no by exact X. reflexivity.
Qed.

(** ** What a frame can do *)
Lemma mem_fields : forall c f stale k, whole c f -> (k <= 16)%nat ->
  g (firstn (N.to_nat (mtu c) + HEADER) f ++ stale) k 2 = unbe (firstn 2 (skipn k f)).
Proof.
  intros c f stale k (W1 & W2) K. unfold size in *. rewrite UdpProps.firstn_short by (unfold HEADER; lia).
  rewrite g_app_l by lia. apply g_at. lia.
Qed.
Lemma whole_cons : forall c f, whole c f -> exists x t, firstn (N.to_nat (mtu c) + HEADER) f = x :: t.
Proof.
  intros c f (W1 & W2). unfold size in *. rewrite UdpProps.firstn_short by (unfold HEADER; lia).
  destruct f as [|x t]; [cbn in W1; lia|]. exists x, t. reflexivity.
Qed.
Lemma reader_whole : forall c f stale reuse junk, whole c f ->
  reader c f stale reuse junk =
    if negb (type_of f =? et c) then Dropped
    else if endpoint f =? 0 then
      if 2048 <? says f then Overrun
      else let m := match reuse with Some m => m | None => f ++ stale end in
           ToMgmt (g m 6 6) (firstn (N.to_nat (says f)) (skipn 18 m) ++ junk) (N.to_nat (says f))
    else if mtu c + 288 <? says f then Overrun
    else if 10240 <=? endpoint f then Overrun
    else ToFlow (endpoint f) (firstn (N.to_nat (says f)) (carries f ++ stale)).
Proof.
  intros c f stale reuse junk W. destruct (whole_cons c f W) as (x & t & E).
  assert (SK : skipn HEADER (firstn (N.to_nat (mtu c) + HEADER) f ++ stale) = carries f ++ stale).
  { destruct W as (W1 & W2). unfold size in *. rewrite UdpProps.firstn_short by (unfold HEADER; lia). unfold carries.
    rewrite skipn_app. unfold HEADER. replace (18 - length f)%nat with 0%nat by lia. reflexivity. }
  assert (ME : firstn (N.to_nat (mtu c) + HEADER) f ++ stale = f ++ stale).
  { destruct W as (W1 & W2). unfold size in *. rewrite UdpProps.firstn_short by (unfold HEADER; lia). reflexivity. }
  unfold reader, type_of, says, endpoint.
  pose proof (mem_fields c f stale 12 W ltac:(lia)) as M1. pose proof (mem_fields c f stale 14 W ltac:(lia)) as M2.
  pose proof (mem_fields c f stale 16 W ltac:(lia)) as M3. rewrite E in *. rewrite M1, M2, M3, SK, ME. reflexivity.
Qed.

Theorem dix_reader_breaks : forall c s f stale reuse junk, whole c f ->
  ((exists s' o, step L c s (Recv f stale reuse junk) = (s', o) /\ In Crashed o) <-> breaks_reader c f).
Proof.
  intros c s f stale reuse junk W. cbn [step]. rewrite reader_whole by exact W. unfold breaks_reader.
  destruct (N.eqb_spec (type_of f) (et c)) as [T|T]; cbn [negb].
  2: { split; [intros (s' & o & O & I); injection O as _ <-; elim I|intros (Z & _); contradiction]. }
  destruct (N.eqb_spec (endpoint f) 0) as [E|E].
  - destruct (N.ltb_spec 2048 (says f)) as [X|X].
    + split; [intros _; split; [exact T|left; split; assumption]|]. intros _. eexists. eexists. split; [reflexivity|left; reflexivity].
    + split; [intros (s' & o & O & I); injection O as _ <-; elim I|]. intros (_ & [(_ & Y)|(Y & _)]); [lia|contradiction].
  - destruct (N.ltb_spec (mtu c + 288) (says f)) as [X|X]; [|destruct (N.leb_spec 10240 (endpoint f)) as [Y|Y]].
    + split; [intros _; split; [exact T|right; split; [exact E|left; exact X]]|]. intros _. eexists. eexists. split; [reflexivity|left; reflexivity].
    + split; [intros _; split; [exact T|right; split; [exact E|right; exact Y]]|]. intros _. eexists. eexists. split; [reflexivity|left; reflexivity].
    + split; [intros (s' & o & O & I); injection O as _ <-; destruct I as [I|[]]; discriminate I|].
      intros (_ & [(Z & _)|(_ & [Z|Z])]); lia.
Qed.
Theorem dix_handler_breaks : forall c s src buf len fs fd j, frames s = (src, buf, len) :: fs -> (38 <= length buf)%nat ->
  ((exists s' o, step L c s (Handle fd j) = (s', o) /\ In Crashed o) <-> breaks_handler L buf len).
Proof.
  intros c s src buf len fs fd j F N. unfold breaks_handler. cbn [step]. rewrite F. unfold mgmt.
  unfold o_code at 1 2 3 4. rewrite (UdpProps.g1_nth buf 35) by lia.
  assert (GE : g buf o_deid 2 = unbe (firstn 2 (skipn 2 buf))) by (unfold o_deid; apply g_at; lia).
  rewrite GE. unfold FLOW_REQ, FLOW_REPLY, NAME_QUERY_REQ, NAME_QUERY_REPLY, MSG, SYS_MAX_FLOWS.
  destruct (N.eqb_spec (nth 35 buf 0) 0) as [C|C].
  - destruct (Nat.ltb_spec len (38 + L)) as [X|X].
    + split; [intros _; left; split; assumption|]. intros _. eexists. eexists. split; [reflexivity|left; reflexivity].
    + split; [|intros [(_ & Y)|(Y & _)]; [lia|congruence]]. intros (s' & o & O & I). exfalso.
      destruct (ShimModel.find_reg _ _); [|injection O as _ <-; elim I].
      destruct fd; injection O as _ <-; destruct I as [I|[]]; discriminate I.
  - destruct (N.eqb_spec (nth 35 buf 0) 1) as [D|D].
    + destruct (Nat.ltb_spec len 38) as [X|X]; [|destruct (N.leb_spec 10240 (unbe (firstn 2 (skipn 2 buf)))) as [Y|Y]].
      * split; [intros _; right; split; [exact D|left; exact X]|]. intros _. eexists. eexists. split; [reflexivity|left; reflexivity].
      * split; [intros _; right; split; [exact D|right; exact Y]|]. intros _. eexists. eexists. split; [reflexivity|left; reflexivity].
      * split; [|intros [(Z & _)|(_ & [Z|Z])]; lia]. intros (s' & o & O & I). injection O as _ <-. destruct I as [I|[]]. discriminate I.
    + split; [|intros [(Z & _)|(Z & _)]; congruence]. intros (s' & o & O & I). exfalso.
      destruct (nth 35 buf 0 =? 2).
      * injection O as _ <-. destruct (ShimModel.find_reg _ _); [|elim I]. unfold sent in I. destruct (send _ _ _ _); destruct I as [I|[]]; discriminate I.
      * destruct (nth 35 buf 0 =? 3); injection O as _ <-; [destruct I as [I|[]]; discriminate I|elim I].
Qed.

(** A frame of another layer has no effect. *)
Theorem dix_other_layer : forall c s f stale reuse junk, whole c f -> type_of f <> et c ->
  step L c s (Recv f stale reuse junk) = (s, []).
Proof.
  intros c s f stale reuse junk W T. cbn [step]. rewrite reader_whole by exact W.
  destruct (N.eqb_spec (type_of f) (et c)) as [X|X]; [contradiction|reflexivity].
Qed.
(** A packet that is delivered is what its frame carried, if the frame is as
    long as it says ... *)
Theorem dix_delivered_partial : forall c s f stale reuse junk s' fd p, whole c f -> says f <= size (carries f) ->
  step L c s (Recv f stale reuse junk) = (s', [Delivered fd p]) ->
  fd = endpoint f /\ type_of f = et c /\ p = firstn (N.to_nat (says f)) (carries f).
Proof.
  intros c s f stale reuse junk s' fd p W S H. cbn [step] in H. rewrite reader_whole in H by exact W.
  destruct (N.eqb_spec (type_of f) (et c)) as [T|T]; cbn [negb] in H; [|discriminate H].
  destruct (endpoint f =? 0); [destruct (2048 <? says f); discriminate H|].
  destruct (mtu c + 288 <? says f); [discriminate H|]. destruct (10240 <=? endpoint f); [discriminate H|].
  injection H as _ <- <-. repeat split; [exact T|]. unfold size in S. rewrite firstn_app.
  replace (N.to_nat (says f) - length (carries f))%nat with 0%nat by lia. cbn [firstn]. apply app_nil_r.
Qed.
End L.

(** ... and otherwise the reader of the flow gets memory that held something
    else. *)
Definition node := Cfg 1 40960 1500.
Definition quiet : st := St (fun fd => if fd =? 70 then Ef 80 2 else Ef (-1) 0) ShimModel.shim_create [].
Theorem dix_foreign_memory_refuted :
  ~ (forall s f stale junk s' fd p x, whole node f -> to_of f = me node -> from_of f = r_addr (tbl s fd) ->
       step 4 node s (Recv f stale None junk) = (s', [Delivered fd p]) -> In x p -> In x (carries f)).
Proof.
  intros F.
  specialize (F quiet (be 6 1 ++ be 6 2 ++ be 2 40960 ++ be 2 70 ++ be 2 2 ++ [7]) [99] [] quiet 70 [7; 99] 99).
  assert (X : In 99 [7]); [|destruct X as [X|[]]; discriminate X].
  apply F; try reflexivity; [split; vm_compute; discriminate|right; left; reflexivity].
Qed.
(** A management frame is released before it is copied: what is handled need
    not be what was received. *)
Theorem dix_mgmt_as_received_refuted :
  ~ (forall s f stale reuse junk s' src buf len fs, whole node f -> says f <= size (carries f) ->
       step 4 node s (Recv f stale reuse junk) = (s', []) -> frames s' = (src, buf, len) :: fs -> frames s = fs ->
       firstn len buf = firstn len (carries f)).
Proof.
  intros F.
  specialize (F quiet (be 6 1 ++ be 6 2 ++ be 2 40960 ++ be 2 0 ++ be 2 1 ++ [7]) [] (Some (repeat 0 18 ++ [9])) []
    (St (tbl quiet) (names quiet) [(0, [9], 1%nat)]) 0 [9] 1%nat []).
  assert (X : [9] = [7]); [|discriminate X]. apply F; try reflexivity; try (vm_compute; discriminate); split; vm_compute; discriminate.
Qed.
(** When nobody else gets the buffer, it is. *)
Theorem dix_mgmt_as_received_partial : forall L c s f stale junk s' src buf len fs, whole c f -> says f <= size (carries f) ->
  step L c s (Recv f stale None junk) = (s', []) -> frames s' = (src, buf, len) :: fs -> frames s = fs ->
  src = from_of f /\ len = N.to_nat (says f) /\ firstn len buf = firstn len (carries f).
Proof.
  intros L c s f stale junk s' src buf len fs W S H F E. cbn [step] in H. rewrite reader_whole in H by exact W.
  assert (NE : forall (x : N * list N * nat) l, x :: l <> l).
  { intros x l X. apply (f_equal (@List.length (N * list N * nat))) in X. cbn in X. lia. }
  destruct (type_of f =? et c); cbn [negb] in H; [|injection H as <-; rewrite F in E; elim (NE _ _ E)].
  destruct (endpoint f =? 0).
  2: { destruct (mtu c + 288 <? says f); [discriminate H|]. destruct (10240 <=? endpoint f); discriminate H. }
  destruct (2048 <? says f); [discriminate H|]. destruct W as (W1 & W2). unfold size in *.
  assert (K : skipn 18 (f ++ stale) = carries f ++ stale).
  { rewrite skipn_app. replace (18 - length f)%nat with 0%nat by lia. reflexivity. }
  assert (K2 : g (f ++ stale) 6 6 = from_of f) by (rewrite g_app_l by lia; apply g_at; lia).
  rewrite K, K2 in H. clear K K2. injection H as <-. cbn [frames] in F. injection F as <- <- <- _.
  split; [reflexivity|split; [reflexivity|]].
  - rewrite (firstn_app (N.to_nat (says f)) (carries f) stale). replace (N.to_nat (says f) - length (carries f))%nat with 0%nat by lia. cbn [firstn]. rewrite app_nil_r.
    apply UdpProps.firstn_app_len. rewrite firstn_length. lia.
Qed.

(** ** Whose frames are accepted *)

(** A frame for another node is delivered, ... *)
Theorem dix_for_me_refuted :
  ~ (forall s f stale junk s' fd p, whole node f -> says f = size (carries f) -> from_of f = r_addr (tbl s fd) ->
       step 4 node s (Recv f stale None junk) = (s', [Delivered fd p]) -> to_of f = me node \/ to_of f = BROADCAST).
Proof.
  intros F.
  specialize (F quiet (be 6 9 ++ be 6 2 ++ be 2 40960 ++ be 2 70 ++ be 2 1 ++ [7]) [] [] quiet 70 [7]).
  destruct F as [F|F]; try reflexivity; try discriminate F. split; vm_compute; discriminate.
Qed.
(** ... so is a packet from a node that is not the peer, ... *)
Theorem dix_from_peer_refuted :
  ~ (forall s f stale junk s' fd p, whole node f -> says f = size (carries f) -> to_of f = me node ->
       step 4 node s (Recv f stale None junk) = (s', [Delivered fd p]) -> from_of f = r_addr (tbl s fd)).
Proof.
  intros F.
  specialize (F quiet (be 6 1 ++ be 6 3 ++ be 2 40960 ++ be 2 70 ++ be 2 1 ++ [7]) [] [] quiet 70 [7]).
  assert (X : 3 = 2); [|discriminate X]. apply F; try reflexivity. split; vm_compute; discriminate.
Qed.
(** ... and an answer from anybody makes them the peer of the flow. *)
Theorem dix_answer_from_peer_refuted :
  ~ (forall s f stale junk s' s'' fd r data p a, whole node f -> says f = size (carries f) -> to_of f = me node ->
       step 4 node s (Recv f stale None junk) = (s', []) ->
       step 4 node s' (Handle None []) = (s'', [Answered fd r data]) ->
       r_addr (tbl s fd) <> 0 -> step 4 node s'' (Packet fd p) = (s'', [Sent a]) -> to_of a = r_addr (tbl s fd)).
Proof.
  intros F. set (m := enc_reply 90 70 0 [] (repeat 0 32)).
  specialize (F quiet (be 6 1 ++ be 6 3 ++ be 2 40960 ++ be 2 0 ++ be 2 38 ++ m) [] []
    (St (tbl quiet) (names quiet) [(3, m, 38%nat)]) (St (upd (tbl quiet) 70 (Ef 90 3)) (names quiet) []) 70 0%Z [] [7]
    (be 6 3 ++ be 6 1 ++ be 2 40960 ++ be 2 90 ++ be 2 1 ++ [7])).
  assert (X : 3 = 2); [|discriminate X]. apply F; try reflexivity; try discriminate. split; vm_compute; discriminate.
Qed.

(** The IRMd is asked only for names that are registered, and a query is
    answered only for those, to the node that asked. *)
Theorem dix_asked_for_registered : forall L c s fd j s' o h q data, step L c s (Handle fd j) = (s', o) -> In (Asked h q data) o ->
  In h (ShimModel.registry (names s)).
Proof.
  assert (HE : forall a b, ShimModel.heqb a b = true -> a = b).
  { induction a as [|x a IH]; destruct b as [|y b]; intros E; try discriminate E; [reflexivity|]. cbn in E.
    apply andb_prop in E. destruct E as (E1 & E2). apply N.eqb_eq in E1. rewrite E1, (IH _ E2). reflexivity. }
  assert (FR : forall l h, ShimModel.find_reg l h = true -> In h l).
  { induction l as [|x l IH]; intros h E; [discriminate E|]. cbn in E. destruct (ShimModel.heqb x h) eqn:X; [left; apply HE, X|right; apply IH, E]. }
  intros L c s fd j s' o h q data H I. cbn [step] in H. destruct (frames s) as [|[[src buf] len] fs]; [injection H as _ <-; elim I|].
  unfold mgmt in H. cbn [names tbl frames] in H. destruct (g buf o_code 1 =? FLOW_REQ).
  { destruct (Nat.ltb len (MSG + L)); [injection H as _ <-; destruct I as [I|[]]; discriminate I|].
    destruct (ShimModel.find_reg (ShimModel.registry (names s)) (firstn L (skipn MSG buf))) eqn:R; [|injection H as _ <-; elim I].
    injection H as _ <-. destruct I as [I|[]]. injection I as <- _ _. apply FR, R. }
  destruct (g buf o_code 1 =? FLOW_REPLY).
  { destruct (Nat.ltb len MSG); [injection H as _ <-; destruct I as [I|[]]; discriminate I|].
    destruct (SYS_MAX_FLOWS <=? g buf o_deid 2); injection H as _ <-; destruct I as [I|[]]; discriminate I. }
  destruct (g buf o_code 1 =? NAME_QUERY_REQ).
  { injection H as _ <-. destruct (ShimModel.find_reg _ _); [|elim I]. unfold sent in I. destruct (send _ _ _ _); destruct I as [I|[]]; discriminate I. }
  destruct (g buf o_code 1 =? NAME_QUERY_REPLY); injection H as _ <-; [destruct I as [I|[]]; discriminate I|elim I].
Qed.
(** A query or answer about a name that is too short is completed from memory
    that held something else: a node learns a name that nobody sent. *)
Theorem dix_short_query_refuted :
  ~ (forall s f stale junk s' s'' h, whole node f -> says f = size (carries f) ->
       step 4 node s (Recv f stale None junk) = (s', []) -> step 4 node s' (Handle None []) = (s'', [Resolved h]) ->
       exists a b, carries f = a ++ h ++ b).
Proof.
  intros F. set (m := repeat 0 35 ++ [3; 0; 0]).
  destruct (F quiet (be 6 1 ++ be 6 3 ++ be 2 40960 ++ be 2 0 ++ be 2 38 ++ m) [] [5; 6; 7; 8]
    (St (tbl quiet) (names quiet) [(3, m ++ [5; 6; 7; 8], 38%nat)])
    (St (tbl quiet) (ShimModel.mk_shim [] [([5; 6; 7; 8], 3)]) []) [5; 6; 7; 8]) as (a & b & E); try reflexivity.
  { split; vm_compute; discriminate. }
  assert (I : In 5 (carries (be 6 1 ++ be 6 3 ++ be 2 40960 ++ be 2 0 ++ be 2 38 ++ m))).
  { rewrite E. apply in_or_app. right. left. reflexivity. }
  vm_compute in I. repeat (destruct I as [I|I]; [discriminate I|]). elim I.
Qed.

(** ** Cases *)
Example dix_cases :
  cfg_ok node /\ fd_ok 70 /\ (exists f, whole node f /\ breaks_reader node f) /\
  (exists f, whole node f /\ type_of f <> et node) /\ (exists b, length b = 38%nat /\ breaks_handler 16 b 38) /\
  (exists f s' fd p, whole node f /\ says f <= size (carries f) /\ step 4 node quiet (Recv f [] None []) = (s', [Delivered fd p])).
Proof.
  split; [repeat split; vm_compute; try reflexivity; discriminate|]. split; [split; vm_compute; [discriminate|reflexivity]|].
  split; [exists (be 6 1 ++ be 6 3 ++ be 2 40960 ++ be 2 20000 ++ be 2 0); split; [split; vm_compute; discriminate|
    split; [reflexivity|right; split; [discriminate|right; vm_compute; discriminate]]]|].
  split; [exists (be 6 1 ++ be 6 3 ++ be 2 40961 ++ be 2 20000 ++ be 2 0); split; [split; vm_compute; discriminate|discriminate]|].
  split; [exists (repeat 0 38); split; [reflexivity|left; split; [reflexivity|lia]]|].
  exists (be 6 1 ++ be 6 2 ++ be 2 40960 ++ be 2 70 ++ be 2 1 ++ [7]), quiet, 70, [7].
  split; [split; vm_compute; discriminate|]. split; [vm_compute; discriminate|reflexivity].
Qed.

Print Assumptions dix_flow_works_partial.
Print Assumptions dix_whole_or_nothing.
Print Assumptions dix_reader_breaks.
Print Assumptions dix_handler_breaks.
Print Assumptions dix_other_layer.
Print Assumptions dix_delivered_partial.
Print Assumptions dix_foreign_memory_refuted.
Print Assumptions dix_mgmt_as_received_refuted.
Print Assumptions dix_mgmt_as_received_partial.
Print Assumptions dix_for_me_refuted.
Print Assumptions dix_from_peer_refuted.
Print Assumptions dix_answer_from_peer_refuted.
Print Assumptions dix_asked_for_registered.
Print Assumptions dix_short_query_refuted.
