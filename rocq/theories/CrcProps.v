(** C22, C23, C58: CRC-32 and the packet trailer. *)
From Coq Require Import List Arith NArith Bool Lia ZifyNat ZifyN ZifyBool.
From Verif Require Import Bytes CrcModel CrcSpec CrcProofs.
Import ListNotations.
Open Scope N_scope.

(** C22.  The value computed is the CRC-32 of the data, and the only one. *)
Theorem crc32_is_crc : forall bs c, bytes_ok bs -> (is_crc32 bs c <-> c = crc32 0 bs).
Proof.
  intros bs c H. split.
  - intros C. eapply crc32_unique; [exact C|]. apply crc32_spec. exact H.
  - intros ->. apply crc32_spec. exact H.
Qed.
Print Assumptions crc32_is_crc.

(** It can be computed piece by piece. *)
Theorem crc32_pieces : forall c a b, crc32 (crc32 c a) b = crc32 c (a ++ b).
Proof.
  intros. unfold crc32. rewrite fold_left_app. do 2 f_equal.
  rewrite N.lxor_assoc, N.lxor_nilpotent, N.lxor_0_r. reflexivity.
Qed.
Print Assumptions crc32_pieces.

(** mem_hash stores it most significant byte first. *)
Theorem mem_hash_crc32_bytes : forall bs, bytes_ok bs ->
  length (mem_hash_crc32 bs) = 4%nat /\ is_crc32 bs (unbe (mem_hash_crc32 bs)).
Proof.
  intros bs H. unfold mem_hash_crc32. split; [apply be_length|].
  rewrite unbe_be; [apply crc32_spec; exact H|]. apply crc32_bound. exact H.
Qed.
Print Assumptions mem_hash_crc32_bytes.

Definition s123456789 : list N := [49; 50; 51; 52; 53; 54; 55; 56; 57].
Example crc32_check_value :
  crc32 0 s123456789 = 0xcbf43926 /\ crc32 0 [48] = 0xf4dbdf21 /\
  mem_hash_crc32 s123456789 = [0xcb; 0xf4; 0x39; 0x26].
Proof. vm_compute. auto. Qed.

(** C23.  A packet that arrives as it was sent is accepted, and the trailer is
    gone. *)
Theorem crc_trailer_accepted : forall pkt, receive (add_crc pkt) = Some (Some pkt).
Proof.
  intros pkt. unfold receive, add_crc.
  assert (L : length (mem_hash_crc32 pkt) = 4%nat) by (unfold mem_hash_crc32; apply be_length).
  rewrite chk_app by exact L.
  destruct (list_eq_dec N.eq_dec (mem_hash_crc32 pkt) (mem_hash_crc32 pkt)); [|contradiction].
  destruct (pkt ++ mem_hash_crc32 pkt) eqn:E; [|reflexivity].
  apply app_eq_nil in E as [_ E]. rewrite E in L. discriminate.
Qed.
Print Assumptions crc_trailer_accepted.

(** A packet in which all flipped bits lie within 30 consecutive bits is dropped;
    so is one in which they lie within 32 consecutive bits of the data, or of the
    trailer.  Missing from the full claim: bursts of 31 or 32 bits that touch both
    the data and the trailer. *)
Theorem crc_burst_dropped_partial : forall pkt e w k, bytes_ok pkt -> bytes_ok e ->
  length e = length (add_crc pkt) -> burst e w k ->
  (w <= 30 \/
   w <= 32 /\ (k + w <= 8 * N.of_nat (length pkt) \/ 8 * N.of_nat (length pkt) <= k)) ->
  receive (flip (add_crc pkt) e) = Some None.
Proof.
  intros pkt e w k Hp He L B W.
  assert (L4 : length (add_crc pkt) = (length pkt + 4)%nat).
  { unfold add_crc, mem_hash_crc32. rewrite app_length, be_length. reflexivity. }
  assert (LF : length (flip (add_crc pkt) e) = (length pkt + 4)%nat) by (rewrite flip_length; lia).
  unfold receive. destruct (flip (add_crc pkt) e) eqn:E; [reflexivity|]. rewrite <- E in *.
  destruct (chk_crc (flip (add_crc pkt) e)) as [[ok data]|] eqn:C.
  - pose proof (burst_rejected pkt e w k _ Hp He ltac:(lia) B W C) as R. cbn [fst] in R. rewrite R. reflexivity.
  - exfalso. unfold chk_crc in C.
    replace (Nat.leb 4 (length (flip (add_crc pkt) e))) with true in C by (symmetry; apply Nat.leb_le; lia).
    discriminate.
Qed.
Print Assumptions crc_burst_dropped_partial.

(** In particular any single flipped bit. *)
Theorem crc_single_bit_dropped : forall pkt e k, bytes_ok pkt -> bytes_ok e ->
  length e = length (add_crc pkt) -> unle e = 2 ^ k ->
  receive (flip (add_crc pkt) e) = Some None.
Proof.
  intros pkt e k Hp He L E. apply crc_burst_dropped_partial with (w := 1) (k := k); auto.
  - exists 1. split; [discriminate|]. split; [reflexivity|]. rewrite N.shiftl_1_l. exact E.
  - left. discriminate.
Qed.
Print Assumptions crc_single_bit_dropped.

Example crc_burst_nonvacuous :
  receive (flip (add_crc s123456789) [0; 0; 0; 0; 0; 0; 0; 0xff; 0xfe; 0x7f; 0x04; 0; 0]) = Some None /\
  burst [0; 0; 0; 0; 0; 0; 0; 0xff; 0xfe; 0x7f; 0x04; 0; 0] 27 56.
Proof.
  split; [vm_compute; reflexivity|]. exists 0x047ffeff. repeat split; discriminate.
Qed.

(** The trailer holds the CRC with its bytes in the opposite order to the bits of
    the data, so a burst of 32 bits across the two can go unnoticed. *)
Theorem crc_burst32_dropped_refuted : exists pkt e k data', bytes_ok pkt /\ bytes_ok e /\
  length e = length (add_crc pkt) /\ burst e 32 k /\
  receive (flip (add_crc pkt) e) = Some (Some data') /\ data' <> pkt.
Proof.
  exists s123456789, [0; 0; 0; 0; 0; 0; 0; 0x61; 0xd8; 0xf4; 0xee; 0; 0], 56.
  eexists. split; [repeat constructor|]. split; [repeat constructor|]. split; [reflexivity|]. split.
  - exists (0x61 + 256 * (0xd8 + 256 * (0xf4 + 256 * 0xee))). split; [discriminate|]. split; reflexivity.
  - split; [vm_compute; reflexivity|]. discriminate.
Qed.
Print Assumptions crc_burst32_dropped_refuted.

(** C58.  A received packet too short to hold a trailer. *)
Theorem crc_short_packet_dropped_refuted : exists pkt, bytes_ok pkt /\ pkt <> [] /\ receive pkt = None.
Proof. exists [1; 2; 3]. repeat split; [repeat constructor|discriminate]. Qed.
Print Assumptions crc_short_packet_dropped_refuted.
Theorem crc_long_packet_handled_partial : forall pkt, length pkt = 0%nat \/ (4 <= length pkt)%nat ->
  receive pkt = Some None \/ exists data, receive pkt = Some (Some data) /\ pkt = add_crc data.
Proof.
  intros pkt H. unfold receive. destruct pkt as [|b p] eqn:E; [left; reflexivity|]. rewrite <- E in *.
  unfold chk_crc. replace (Nat.leb 4 (length (_))) with true.
  2: { symmetry. apply Nat.leb_le. destruct H as [H|H]; [subst; discriminate|exact H]. }
  destruct (list_eq_dec N.eq_dec _ _) as [X|]; [|left; reflexivity].
  right. eexists. split; [reflexivity|]. unfold add_crc. rewrite X. rewrite firstn_skipn. reflexivity.
Qed.
Print Assumptions crc_long_packet_handled_partial.
