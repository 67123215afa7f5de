(** C45 (for MD5 and CRC-32) and C77: which calls of the built-in MD5 stay inside
    their buffers, and that the digest is then the one of RFC 1321. *)
From Coq Require Import List Arith NArith Bool Lia ZifyBool ZifyNat ZifyN.
From Verif Require Import Bytes Sha3Proofs2 CrcModel Md5Model Md5Spec Md5Proofs Md5Proofs2.
Import ListNotations.
Open Scope N_scope.

Lemma fed_unsafe ctx M m slack : Md5Proofs2.fed ctx M ->
  ~ safe_call (length M) (length m) (length slack) -> md5_update ctx m slack = None.
Proof.
  intros (BM & Bb & Hb & Hw & Hlen & Hh & Hc) HS.
  unfold md5_update. rewrite Hlen, len_64. clear Hlen Hh Hc Hw BM Bb.
  unfold safe_call in HS. set (r := (length M mod 64)%nat) in *.
  assert (Hr : (r < 64)%nat) by (apply Nat.mod_upper_bound; lia). clearbody r.
  assert (Lmem : length (m ++ slack) = (length m + length slack)%nat) by apply app_length.
  destruct (Nat.eqb_spec r 0) as [E0|E0].
  - rewrite md5_blocks_none; [reflexivity|lia|lia| |exact Hb].
    rewrite Lmem. lia.
  - destruct (Nat.ltb_spec (length m) (64 - r)) as [L|L].
    + replace (Nat.min (length m) (64 - r)) with (length m) in HS by lia.
      rewrite copy_none; [reflexivity|]. rewrite Hb, Lmem. pose proof (up4_pad (length m)) as U.
      fold (pad4 (length m)) in U. lia.
    + replace (Nat.min (length m) (64 - r)) with (64 - r)%nat in HS by lia.
      destruct (le32_copy (m_msg ctx) r (m ++ slack) (64 - r)) as [b|] eqn:E; [|reflexivity].
      destruct (Nat.le_gt_cases (r + up4 (64 - r)) 64) as [D|D].
      2: { rewrite copy_none in E by lia. discriminate. }
      assert (Hr4 : (r mod 4 = 0)%nat) by (unfold up4 in D; lia).
      assert (Lb : length b = 64%nat).
      { unfold le32_copy in E. destruct (get (m ++ slack) 0 (up4 (64 - r))) as [x|]; [|discriminate].
        apply put_length' in E. lia. }
      rewrite md5_blocks_none; [reflexivity|lia| | |exact Lb].
      * rewrite skipn_length. lia.
      * rewrite skipn_length, Lmem.
        assert (Hp : pad4 (length m - (64 - r)) = pad4 (length m)).
        { unfold pad4. replace ((length m - (64 - r)) mod 4)%nat with (length m mod 4)%nat; [reflexivity|].
          clear - Hr4 Hr L. lia. }
        lia.
Qed.

(** Words and padding. *)
Lemma le_app : forall n m v, le (n + m) v = le n v ++ le m (v / 256 ^ N.of_nat n).
Proof.
  induction n as [|n IH]; intros m v.
  - change (256 ^ N.of_nat 0) with 1. rewrite N.div_1_r. reflexivity.
  - cbn [Nat.add le app]. rewrite IH. rewrite pow256_S, N.div_div by lia. reflexivity.
Qed.
Lemma le_mod : forall n v, le n (v mod 256 ^ N.of_nat n) = le n v.
Proof.
  intros n v. assert (E : unle (le n v) = v mod 256 ^ N.of_nat n) by apply unle_le_mod.
  rewrite <- E. rewrite <- (le_length n v) at 1. apply le_unle, le_ok.
Qed.
Lemma unle_app : forall a b, unle (a ++ b) = unle a + 256 ^ N.of_nat (length a) * unle b.
Proof.
  induction a as [|x a IH]; intros b.
  - cbn [app unle length]. change (256 ^ N.of_nat 0) with 1. lia.
  - cbn [app unle length]. rewrite IH, pow256_S. lia.
Qed.
Lemma unle_zeros n : unle (repeat 0 n) = 0.
Proof. induction n as [|n IH]; [reflexivity|]. cbn [repeat unle]. rewrite IH. reflexivity. Qed.

(** The word with the last bytes of the message: they stay, 0x80 follows, then zeros. *)
Lemma mark_word j (w : list N) : (j < 4)%nat -> length w = 4%nat -> bytes_ok w ->
  let shift := N.of_nat j * 8 in
  le 4 (N.lxor (N.land (unle w) (N.lnot (w32 (N.shiftl 0xFFFFFFFF shift)) 32)) (w32 (N.shiftl 0x80 shift)))
  = firstn j w ++ [0x80] ++ repeat 0 (3 - j).
Proof.
  intros Hj Hw B shift.
  assert (L1 : length (firstn j w) = j) by (apply firstn_length_le; lia).
  assert (Bp : unle (firstn j w) < 256 ^ N.of_nat j).
  { rewrite <- L1 at 2. apply unle_bound. apply Forall_firstn; auto. }
  assert (P : 256 ^ N.of_nat j = 2 ^ (N.of_nat j * 8)).
  { change 256 with (2 ^ 8). rewrite <- N.pow_mul_r. f_equal. lia. }
  assert (M1 : N.lnot (w32 (N.shiftl 0xFFFFFFFF shift)) 32 = N.ones shift).
  { unfold shift. destruct j as [|[|[|[|j]]]]; try lia; reflexivity. }
  assert (M2 : w32 (N.shiftl 0x80 shift) = 2 ^ (shift + 7)).
  { unfold shift. destruct j as [|[|[|[|j]]]]; try lia; reflexivity. }
  rewrite M1, M2, N.land_ones.
  assert (E1 : unle w mod 2 ^ shift = unle (firstn j w)).
  { rewrite <- (firstn_skipn j w) at 1. rewrite unle_app, L1, P. fold shift.
    rewrite (N.mul_comm (2 ^ shift)), N.mod_add by (apply N.pow_nonzero; discriminate).
    apply N.mod_small. unfold shift. rewrite <- P. exact Bp. }
  rewrite E1. set (a := unle (firstn j w)) in *.
  assert (Ha : a < 2 ^ shift) by (unfold shift; rewrite <- P; exact Bp).
  assert (E2 : N.lxor a (2 ^ (shift + 7)) = a + 2 ^ (shift + 7)).
  { symmetry. apply N.add_nocarry_lxor. apply N.bits_inj. intros n. rewrite N.land_spec, N.bits_0.
    destruct (N.eq_dec n (shift + 7)) as [En|En].
    - rewrite En. destruct (N.eq_dec a 0) as [Ez|Ez]; [rewrite Ez, N.bits_0; reflexivity|].
      rewrite N.bits_above_log2; [reflexivity|]. apply N.log2_lt_pow2; [lia|].
      eapply N.lt_le_trans; [exact Ha|]. apply N.pow_le_mono_r; lia.
    - rewrite N.pow2_bits_false by auto. apply andb_false_r. }
  rewrite E2.
  assert (E3 : a + 2 ^ (shift + 7) = unle (firstn j w ++ [0x80] ++ repeat 0 (3 - j))).
  { rewrite !unle_app, unle_zeros, L1, P. fold shift. fold a. cbn [length unle].
    rewrite N.pow_add_r. change (2 ^ 7) with 128. lia. }
  rewrite E3. clear - Hj L1 B.
  replace 4%nat with (length (firstn j w ++ [128] ++ repeat 0 (3 - j))).
  - apply le_unle. apply Forall_app. split; [apply Forall_firstn; auto|]. apply Forall_app. split; [repeat constructor|].
    apply Forall_forall. intros x Hx. apply repeat_spec in Hx. subst x. reflexivity.
  - rewrite !app_length, repeat_length, L1. cbn [length]. lia.
Qed.

(** The two words of the length. *)
Lemma len_words n : let l := n mod 2 ^ 64 in
  le 4 (w32 (N.shiftl l 3 mod 2 ^ 64)) ++ le 4 (w32 (N.shiftr l 29)) = le 8 ((8 * n) mod 2 ^ 64).
Proof.
  intros l. assert (W : forall v, le 4 (w32 v) = le 4 v) by (intros v; apply (le_mod 4)).
  change 8%nat with (4 + 4)%nat. rewrite le_app. change (256 ^ N.of_nat 4) with (2 ^ 32).
  assert (E1 : N.shiftl l 3 mod 2 ^ 64 = (8 * n) mod 2 ^ 64).
  { rewrite N.shiftl_mul_pow2. unfold l. change (2 ^ 3) with 8.
    rewrite N.mul_mod_idemp_l by discriminate. f_equal. lia. }
  rewrite E1, W. f_equal. rewrite <- (W (((8 * n) mod 2 ^ 64) / 2 ^ 32)). f_equal.
  apply N.bits_inj. intros b. unfold w32.
  destruct (N.lt_ge_cases b 32) as [Hb|Hb].
  - rewrite !N.mod_pow2_bits_low by auto. rewrite N.shiftr_spec by lia. unfold l.
    rewrite N.mod_pow2_bits_low by lia. rewrite N.div_pow2_bits, N.mod_pow2_bits_low by lia.
    change 8 with (2 ^ 3). rewrite N.mul_comm. replace (b + 32) with (b + 29 + 3) by lia.
    rewrite N.mul_pow2_bits_add. reflexivity.
  - rewrite !N.mod_pow2_bits_high by auto. reflexivity.
Qed.

Lemma setw_ok buf i v : (4 * i + 4 <= length buf)%nat ->
  setw buf i v = Some (firstn (4 * i) buf ++ le 4 v ++ skipn (4 * i + 4) buf).
Proof. intros Hl. unfold setw. rewrite put_ok by (rewrite le_length; auto). rewrite le_length. reflexivity. Qed.
Lemma clear_ok : forall k i buf, (4 * (i + k) <= length buf)%nat ->
  clear_words k i buf = Some (firstn (4 * i) buf ++ repeat 0 (4 * k) ++ skipn (4 * (i + k)) buf).
Proof.
  induction k as [|k IH]; intros i buf Hl.
  - cbn [clear_words]. rewrite Nat.add_0_r, Nat.mul_0_r. cbn [repeat app]. rewrite firstn_skipn. reflexivity.
  - cbn [clear_words]. rewrite setw_ok by lia. rewrite IH.
    + change (le 4 0) with (repeat 0 4). f_equal.
      replace (4 * S i)%nat with (4 * i + 4)%nat by lia.
      assert (L1 : length (firstn (4 * i) buf) = (4 * i)%nat) by (apply firstn_length_le; lia).
      rewrite (firstn_app (4 * i + 4)), L1. rewrite firstn_all2 by lia.
      replace (4 * i + 4 - 4 * i)%nat with 4%nat by lia.
      rewrite firstn_app. rewrite repeat_length. change (firstn 4 (repeat 0 4)) with (repeat 0 4).
      rewrite Nat.sub_diag. cbn [firstn]. rewrite app_nil_r, <- app_assoc. f_equal.
      replace (4 * S k)%nat with (4 + 4 * k)%nat by lia. rewrite (repeat_app _ 4), <- app_assoc. do 2 f_equal.
      rewrite !skipn_app, L1, repeat_length. rewrite !skipn_all2 by (rewrite ?repeat_length; lia).
      cbn [app]. rewrite skipn_skipn. f_equal. lia.
    + rewrite !app_length, firstn_length_le, le_length, skipn_length by lia. lia.
Qed.

Lemma blocks_O m r : blocks 0 m r = r.
Proof. reflexivity. Qed.
Lemma zeros_two r : (56 <= r < 64)%nat -> ((119 - r) mod 64 = 63 - r + 56)%nat.
Proof. intros Hr. rewrite Nat.mod_small by lia. lia. Qed.
Lemma zeros_one r : (r < 56)%nat -> ((119 - r) mod 64 = 55 - r)%nat.
Proof.
  intros Hr. replace (119 - r)%nat with (55 - r + 1 * 64)%nat by lia.
  rewrite Nat.mod_add by lia. apply Nat.mod_small. lia.
Qed.
Lemma fed_final ctx M : Md5Proofs2.fed ctx M -> md5_final ctx = Some (MD5 M).
Proof.
  intros (BM & Bb & Hb & Hw & Hlen & Hh & Hc).
  set (r := (length M mod 64)%nat) in *. set (q := (length M / 64)%nat) in *.
  assert (Hr : (r < 64)%nat) by (apply Nat.mod_upper_bound; lia).
  assert (HM : length M = (64 * q + r)%nat) by (unfold q, r; apply Nat.div_mod; lia).
  assert (Hidx : N.to_nat (N.shiftr (N.land (m_len ctx) 63) 2) = (r / 4)%nat).
  { rewrite Hlen. pose proof (len_64 (length M)) as E. fold r in E.
    rewrite N.shiftr_div_pow2. change (2 ^ 2) with 4. lia. }
  assert (Hsh : N.land (m_len ctx) 3 = N.of_nat (r mod 4)).
  { rewrite Hlen. pose proof (len_64 (length M)) as E. fold r in E.
    replace (N.land (N.of_nat (length M) mod 2 ^ 64) 3)
      with (N.land (N.land (N.of_nat (length M) mod 2 ^ 64) 63) 3) by (rewrite <- N.land_assoc; reflexivity).
    change 3 with (N.ones 2) at 1. rewrite N.land_ones. change (2 ^ 2) with 4. lia. }
  unfold md5_final. rewrite Hidx, Hsh. set (i := (r / 4)%nat). set (j := (r mod 4)%nat).
  assert (Hij : r = (4 * i + j)%nat /\ (j < 4)%nat /\ (i < 16)%nat).
  { unfold i, j. pose proof (Nat.div_mod r 4 ltac:(lia)). pose proof (Nat.mod_upper_bound r 4 ltac:(lia)). lia. }
  destruct Hij as (Hij & Hj & Hi). clearbody i j.
  set (rest := skipn (64 * q) M) in *.
  assert (Lrest : length rest = r) by (unfold rest; rewrite skipn_length; lia).
  (* the buffer after the mark *)
  set (wd := firstn 4 (skipn (4 * i) (m_msg ctx))).
  assert (Lwd : length wd = 4%nat) by (unfold wd; rewrite firstn_length_le; [reflexivity|rewrite skipn_length; lia]).
  assert (Bwd : bytes_ok wd) by (apply Forall_firstn, Forall_skipn; auto).
  rewrite setw_ok by lia. unfold getw. fold wd. rewrite (mark_word j wd Hj Lwd Bwd).
  assert (Epre : firstn (4 * i) (m_msg ctx) ++ firstn j wd = rest).
  { rewrite <- Hc. unfold wd. rewrite firstn_firstn. replace (Nat.min j 4) with j by lia.
    rewrite Hij. rewrite <- (firstn_skipn (4 * i) (m_msg ctx)) at 3.
    rewrite firstn_app, firstn_length_le by lia.
    rewrite (firstn_all2 (firstn (4 * i) (m_msg ctx))) by (rewrite firstn_length_le; lia).
    do 2 f_equal. lia. }
  set (post := skipn (4 * i + 4) (m_msg ctx)).
  assert (Ebuf : firstn (4 * i) (m_msg ctx) ++ (firstn j wd ++ [128] ++ repeat 0 (3 - j)) ++ post
                 = (rest ++ [128] ++ repeat 0 (3 - j)) ++ post).
  { rewrite <- Epre, <- !app_assoc. reflexivity. }
  rewrite Ebuf. set (hd := rest ++ [128] ++ repeat 0 (3 - j)).
  assert (Lhd : length hd = (4 * S i)%nat) by (unfold hd; rewrite !app_length, repeat_length; cbn [length]; lia).
  assert (Lpost : length post = (60 - 4 * i)%nat) by (unfold post; rewrite skipn_length; lia).
  assert (Hfin : forall buf, length buf = 64%nat ->
    match setw buf 14 (w32 (N.shiftl (m_len ctx) 3 mod 2 ^ 64)) with
    | None => None
    | Some b => setw b 15 (w32 (N.shiftr (m_len ctx) 29))
    end = Some (firstn 56 buf ++ le 8 ((8 * N.of_nat (length M)) mod 2 ^ 64))).
  { intros buf Lb. rewrite setw_ok by lia. change (4 * 14)%nat with 56%nat. change (56 + 4)%nat with 60%nat.
    rewrite setw_ok by (rewrite !app_length, firstn_length_le, le_length, skipn_length by lia; lia).
    change (4 * 15)%nat with 60%nat. change (60 + 4)%nat with 64%nat. f_equal.
    rewrite (skipn_all2 (n := 64)) by (rewrite !app_length, firstn_length_le, le_length, skipn_length by lia; lia).
    rewrite app_nil_r, Hlen.
    rewrite (app_assoc (firstn 56 buf)).
    rewrite (firstn_app 60). rewrite app_length, firstn_length_le, le_length by lia.
    change (60 - (56 + 4))%nat with 0%nat. rewrite (firstn_O (skipn 60 buf)), app_nil_r.
    rewrite (firstn_all2 (n := 60)) by (rewrite app_length, firstn_length_le, le_length by lia; lia).
    rewrite <- app_assoc, len_words. reflexivity. }
  (* the specification *)
  unfold MD5. fold iv.
  set (lb := le 8 ((8 * N.of_nat (length M)) mod 2 ^ 64)) in *.
  assert (Llb : length lb = 8%nat) by apply le_length.
  assert (Hout : forall h, wf4 h -> flat_map (le 4) h
    = (let '(a, b, c, d) := tup h 0 in le 4 a ++ le 4 b ++ le 4 c ++ le 4 d)).
  { intros h [Lh _]. destruct h as [|a [|b [|c [|d [|e h]]]]]; try discriminate.
    rewrite tup0. cbn [flat_map nth]. rewrite app_nil_r. reflexivity. }
  unfold padding. fold lb. fold r.
  set (P := M ++ [128] ++ repeat 0 ((119 - r) mod 64) ++ lb).
  assert (HPq : blocks q P iv = tup (m_hash ctx) 0).
  { rewrite Hh. apply blocks_ext. unfold P. rewrite firstn_app. replace (64 * q - length M)%nat with 0%nat by lia.
    cbn [firstn]. rewrite app_nil_r. reflexivity. }
  assert (HPs : skipn (64 * q) P = rest ++ [128] ++ repeat 0 ((119 - r) mod 64) ++ lb).
  { unfold P. rewrite skipn_app. replace (64 * q - length M)%nat with 0%nat by lia. reflexivity. }
  assert (LP : length P = (64 * q + r + 1 + (119 - r) mod 64 + 8)%nat).
  { unfold P. rewrite !app_length, repeat_length, Llb, HM. cbn [length]. lia. }
  destruct (Nat.ltb_spec 14 (S i)) as [L14|L14].
  - (* two blocks *)
    rewrite clear_ok by (rewrite app_length; lia).
    set (b1 := firstn (4 * S i) (hd ++ post) ++ repeat 0 (4 * (16 - S i)) ++ skipn (4 * (S i + (16 - S i))) (hd ++ post)).
    assert (E1 : b1 = rest ++ [128] ++ repeat 0 (63 - r)).
    { unfold b1. rewrite (skipn_all2 (n := (4 * (S i + (16 - S i)))%nat)) by (rewrite app_length; lia).
      rewrite app_nil_r, firstn_app, firstn_all2 by lia.
      replace (4 * S i - length hd)%nat with 0%nat by lia. cbn [firstn]. rewrite app_nil_r.
      unfold hd. rewrite <- !app_assoc. do 2 f_equal. rewrite <- repeat_app. f_equal. lia. }
    assert (L1 : length b1 = 64%nat) by (rewrite E1, !app_length, repeat_length; cbn [length]; lia).
    rewrite clear_ok by lia.
    set (b2 := firstn (4 * 0) b1 ++ repeat 0 (4 * (14 - 0)) ++ skipn (4 * (0 + (14 - 0))) b1).
    assert (L2 : length b2 = 64%nat).
    { unfold b2. rewrite !app_length, repeat_length, skipn_length, firstn_length, L1. reflexivity. }
    specialize (Hfin b2 L2).
    destruct (setw b2 14 (w32 (N.shiftl (m_len ctx) 3 mod 2 ^ 64))) as [b3|] eqn:E3; [|discriminate Hfin].
    rewrite Hfin. f_equal.
    assert (Hz : ((119 - r) mod 64 = 63 - r + 56)%nat) by (apply zeros_two; lia).
    assert (E2 : firstn 56 b2 = repeat 0 56).
    { unfold b2. change (4 * 0)%nat with 0%nat. rewrite firstn_O. change (4 * (14 - 0))%nat with 56%nat.
      change (4 * (0 + (14 - 0)))%nat with 56%nat. rewrite app_nil_l.
      rewrite firstn_app, repeat_length, Nat.sub_diag, firstn_O, app_nil_r. apply firstn_all2. rewrite repeat_length. lia. }
    rewrite E2. rewrite Hout by apply process_wf. rewrite process_ok by apply process_wf. rewrite process_ok by auto.
    replace (length P / 64)%nat with (q + 2)%nat.
    2: { rewrite LP, Hz. replace (64 * q + r + 1 + (63 - r + 56) + 8)%nat with ((q + 2) * 64)%nat by lia.
         rewrite Nat.div_mul; lia. }
    rewrite blocks_add, HPq, HPs, Hz.
    change (S (S 0)) with 2%nat. rewrite repeat_app.
    replace (rest ++ [128] ++ (repeat 0 (63 - r) ++ repeat 0 56) ++ lb) with (b1 ++ repeat 0 56 ++ lb)
      by (rewrite E1, <- !app_assoc; reflexivity).
    rewrite !blocks_S. rewrite (firstn_app 64 b1), (skipn_app 64 b1), L1.
    rewrite (firstn_all2 b1), (skipn_all2 b1) by lia. rewrite Nat.sub_diag, firstn_O, app_nil_r, app_nil_l.
    change (skipn 0 (repeat 0 56 ++ lb)) with (repeat 0 56 ++ lb).
    rewrite (firstn_all2 (repeat 0 56 ++ lb)) by (rewrite app_length, repeat_length; lia).
    rewrite blocks_O. reflexivity.
  - (* one block *)
    rewrite clear_ok by (rewrite app_length; lia).
    set (b1 := firstn (4 * S i) (hd ++ post) ++ repeat 0 (4 * (14 - S i)) ++ skipn (4 * (S i + (14 - S i))) (hd ++ post)).
    assert (Lz : (4 * (S i + (14 - S i)) = 56)%nat) by lia.
    assert (L1 : length b1 = 64%nat).
    { unfold b1. rewrite Lz, !app_length, repeat_length, skipn_length, firstn_length_le, app_length by (rewrite app_length; lia). lia. }
    assert (E1 : firstn 56 b1 = rest ++ [128] ++ repeat 0 (55 - r)).
    { unfold b1. rewrite (app_assoc _ (repeat 0 _)).
      assert (E : firstn (4 * S i) (hd ++ post) ++ repeat 0 (4 * (14 - S i)) = rest ++ [128] ++ repeat 0 (55 - r)).
      { rewrite firstn_app, firstn_all2 by lia. replace (4 * S i - length hd)%nat with 0%nat by lia.
        rewrite firstn_O, app_nil_r. unfold hd. rewrite <- !app_assoc. do 2 f_equal. rewrite <- repeat_app. f_equal. lia. }
      rewrite E. rewrite firstn_app. rewrite !app_length, repeat_length, Lrest. cbn [length].
      replace (56 - (r + (1 + (55 - r))))%nat with 0%nat by lia. rewrite firstn_O, app_nil_r.
      apply firstn_all2. rewrite !app_length, repeat_length. cbn [length]. lia. }
    specialize (Hfin b1 L1).
    destruct (setw b1 14 (w32 (N.shiftl (m_len ctx) 3 mod 2 ^ 64))) as [b3|] eqn:E3; [|discriminate Hfin].
    rewrite Hfin. f_equal. rewrite E1.
    assert (Hz : ((119 - r) mod 64 = 55 - r)%nat) by (apply zeros_one; lia).
    rewrite Hout by apply process_wf. rewrite process_ok by auto.
    replace (length P / 64)%nat with (q + 1)%nat.
    2: { rewrite LP, Hz. replace (64 * q + r + 1 + (55 - r) + 8)%nat with ((q + 1) * 64)%nat by lia.
         rewrite Nat.div_mul; lia. }
    rewrite blocks_add, HPq, HPs, Hz. rewrite blocks_S.
    rewrite blocks_O. rewrite (firstn_all2 (n := 64)).
    + rewrite <- !app_assoc. reflexivity.
    + rewrite !app_length, repeat_length, Llb. cbn [length]. lia.
Qed.

(** A piece of a message together with the bytes that follow it in the same object,
    after [n] bytes have been fed. *)
Fixpoint all_safe (n : nat) (ps : list (list N * list N)) : Prop :=
  match ps with
  | [] => True
  | (m, slack) :: t => safe_call n (length m) (length slack) /\ all_safe (n + length m) t
  end.
Definition pieces_ok (ps : list (list N * list N)) : Prop :=
  Forall (fun p => bytes_ok (fst p) /\ bytes_ok (snd p)) ps.
Definition message (ps : list (list N * list N)) : list N := concat (map fst ps).
Definition buffer_ok (junk : list N) : Prop := bytes_ok junk /\ length junk = 64%nat.

Lemma fed_updates : forall ps ctx M, Md5Proofs2.fed ctx M -> pieces_ok ps -> all_safe (length M) ps ->
  exists ctx', md5_updates ctx ps = Some ctx' /\ Md5Proofs2.fed ctx' (M ++ message ps).
Proof.
  unfold message. induction ps as [|[m s] ps IH]; intros ctx M Hf F Hs.
  - exists ctx. cbn [map concat md5_updates]. rewrite app_nil_r. auto.
  - inversion F as [|? ? [F1 F2] F3]; subst. cbn [fst snd] in *. destruct Hs as [S1 S2].
    destruct (fed_update ctx M m s Hf F1 F2 S1) as (c1 & E1 & H1).
    cbn [md5_updates map concat fst]. rewrite E1.
    destruct (IH c1 (M ++ m) H1 F3) as (c2 & E2 & H2); [rewrite app_length; exact S2|].
    exists c2. rewrite app_assoc. auto.
Qed.

(** C45 for MD5, the part that holds.  Whatever the context's buffer contains at
    first, if every call stays inside its objects then the digest is the one RFC 1321
    gives for the concatenation, so that it does not depend on the cutting. *)
Theorem md5_pieces_partial : forall junk ps,
  buffer_ok junk -> pieces_ok ps -> all_safe 0 ps ->
  md5_digest junk ps = Some (MD5 (message ps)).
Proof.
  intros junk ps [Bj Lj] F Hs. unfold md5_digest.
  destruct (fed_updates ps _ [] (fed_init junk Bj Lj) F Hs) as (ctx & E & Hf).
  rewrite E. apply fed_final. exact Hf.
Qed.
Print Assumptions md5_pieces_partial.

Lemma safe_dec a b c : {safe_call a b c} + {~ safe_call a b c}.
Proof.
  unfold safe_call. destruct (Compare_dec.le_dec (pad4 b) c); [|right; tauto].
  destruct (Nat.eq_dec (a mod 64) 0); [left; auto|].
  destruct (Compare_dec.le_dec (a mod 64 + up4 (Nat.min b (64 - a mod 64))) 64); [left; auto|right; tauto].
Qed.
(** Otherwise some call reads or writes outside of an object. *)
Theorem md5_pieces_outside : forall junk ps,
  buffer_ok junk -> pieces_ok ps -> ~ all_safe 0 ps -> md5_digest junk ps = None.
Proof.
  intros junk ps [Bj Lj] F Hs. unfold md5_digest.
  assert (G : forall ps ctx M, Md5Proofs2.fed ctx M -> pieces_ok ps -> ~ all_safe (length M) ps -> md5_updates ctx ps = None).
  { clear. induction ps as [|[m s] ps IH]; intros ctx M Hf F Hs; [destruct Hs; exact Logic.I|].
    inversion F as [|? ? [F1 F2] F3]; subst. cbn [fst snd] in *. cbn [md5_updates all_safe] in *.
    destruct (safe_dec (length M) (length m) (length s)) as [Y|Y].
    - destruct (fed_update ctx M m s Hf F1 F2 Y) as (c1 & E1 & H1). rewrite E1.
      apply (IH c1 (M ++ m) H1 F3). rewrite app_length. tauto.
    - rewrite (fed_unsafe ctx M m s Hf Y). reflexivity. }
  rewrite (G ps _ [] (fed_init junk Bj Lj) F Hs). reflexivity.
Qed.
Print Assumptions md5_pieces_outside.

(** In particular pieces of whole words are hashed correctly wherever they end. *)
Theorem md5_whole_words : forall junk ps,
  buffer_ok junk -> pieces_ok ps -> Forall (fun p => (length (fst p) mod 4 = 0)%nat) ps ->
  md5_digest junk ps = Some (MD5 (message ps)).
Proof.
  intros junk ps Hj F W. apply md5_pieces_partial; auto.
  assert (G : forall ps n, (n mod 4 = 0)%nat -> Forall (fun p : list N * list N => (length (fst p) mod 4 = 0)%nat) ps -> all_safe n ps).
  { clear. induction ps as [|[m s] ps IH]; intros n Hn W; [exact Logic.I|].
    inversion W as [|? ? W1 W2]; subst. cbn [fst] in W1. split.
    - unfold safe_call, pad4. rewrite W1. split; [cbn; lia|]. right. unfold up4. lia.
    - apply IH; auto. rewrite Nat.add_mod, Hn, W1 by lia. reflexivity. }
  apply G; auto.
Qed.
Print Assumptions md5_whole_words.

(** C45 is false of MD5: after 62 bytes, the two bytes that complete the block are
    copied as a whole word, past the end of the buffer and onto the length, although
    both pieces lie in objects that are large enough to read whole words from. *)
Theorem md5_pieces_refuted : exists junk ps,
  buffer_ok junk /\ pieces_ok ps /\ Forall (fun p => (3 <= length (snd p))%nat) ps /\
  md5_digest junk ps = None /\
  md5_digest junk [(message ps, [0; 0; 0])] = Some (MD5 (message ps)).
Proof.
  exists (repeat 0 64), [(repeat 97 62, [0; 0; 0]); ([98; 99], [0; 0; 0])].
  assert (B : forall n x, x < 256 -> bytes_ok (repeat x n)).
  { intros n x Hx. apply Forall_forall. intros y Hy. apply repeat_spec in Hy. subst y. exact Hx. }
  assert (Z : bytes_ok [0; 0; 0]) by (apply (B 3%nat 0); reflexivity).
  assert (J : buffer_ok (repeat 0 64)) by (split; [apply B; reflexivity|reflexivity]).
  assert (P : pieces_ok [(repeat 97 62, [0; 0; 0]); ([98; 99], [0; 0; 0])]).
  { constructor; [split; [apply B; reflexivity|exact Z]|].
    constructor; [split; [repeat constructor|exact Z]|constructor]. }
  split; [exact J|]. split; [exact P|]. split; [repeat constructor|].
  assert (E : message [(repeat 97 62, [0; 0; 0]); ([98; 99], [0; 0; 0])] = repeat 97 62 ++ [98; 99]).
  { unfold message. cbn [map fst concat]. reflexivity. }
  split.
  - apply md5_pieces_outside; auto. cbn [all_safe]. intros (_ & [_ Hs] & _).
    rewrite repeat_length in Hs. vm_compute in Hs. lia.
  - rewrite md5_pieces_partial.
    + unfold message at 1. cbn [map fst concat]. rewrite app_nil_r. reflexivity.
    + exact J.
    + constructor; [|constructor]. split; [|exact Z]. rewrite E. apply Forall_app. split; [apply B; reflexivity|repeat constructor].
    + rewrite E. cbn [all_safe]. split; [|exact Logic.I]. unfold safe_call.
      rewrite app_length, repeat_length. vm_compute. lia.
Qed.
Print Assumptions md5_pieces_refuted.

(** C77.  mem_hash with MD5 gives the RFC's digest if up to three bytes behind the
    buffer can be read, and nothing behind a buffer of whole words is read. *)
Theorem mem_hash_md5_partial : forall junk buf slack,
  buffer_ok junk -> bytes_ok buf -> bytes_ok slack ->
  (length buf mod 4 = 0 \/ 4 - length buf mod 4 <= length slack)%nat ->
  mem_hash_md5 junk buf slack = Some (MD5 buf).
Proof.
  intros junk buf slack Hj B1 B2 Hs. unfold mem_hash_md5. rewrite md5_pieces_partial; auto.
  - unfold message. cbn [map fst concat]. rewrite app_nil_r. reflexivity.
  - constructor; [split; auto|constructor].
  - split; [|exact Logic.I]. split; [unfold pad4; lia|left; reflexivity].
Qed.
Print Assumptions mem_hash_md5_partial.
(** C77 is false: a buffer whose length is no multiple of four is read past its end. *)
Theorem mem_hash_md5_reads_past_refuted : forall junk buf,
  buffer_ok junk -> bytes_ok buf -> (length buf mod 4 <> 0)%nat -> mem_hash_md5 junk buf [] = None.
Proof.
  intros junk buf Hj B H4. apply md5_pieces_outside; auto.
  - constructor; [split; [auto|constructor]|constructor].
  - cbn [all_safe length]. intros [[Hp _] _]. unfold pad4 in Hp. lia.
Qed.
Print Assumptions mem_hash_md5_reads_past_refuted.

(** C45 for CRC-32, which takes the checksum of what came before. *)
Theorem crc32_pieces : forall ps c, fold_left crc32 ps c = match ps with [] => c | _ => crc32 c (concat ps) end.
Proof.
  assert (A : forall a b c, crc32 (crc32 c a) b = crc32 c (a ++ b)).
  { intros a b c. unfold crc32. rewrite fold_left_app. f_equal. f_equal.
    rewrite N.lxor_assoc, N.lxor_nilpotent, N.lxor_0_r. reflexivity. }
  induction ps as [|p ps IH]; intros c; [reflexivity|]. cbn [fold_left concat]. rewrite IH.
  destruct ps as [|p' ps]; [cbn [concat]; rewrite app_nil_r; reflexivity|]. apply A.
Qed.
Print Assumptions crc32_pieces.

(** The published test vector MD5("abc"), fed as "a" and "bc" with slack. *)
Example md5_abc : md5_digest (repeat 7 64) [([97], [1; 2; 3]); ([98; 99], [4; 5])] = Some
  [0x90;0x01;0x50;0x98;0x3c;0xd2;0x4f;0xb0;0xd6;0x96;0x3f;0x7d;0x28;0xe1;0x7f;0x72].
Proof. vm_compute. reflexivity. Qed.
Example md5_hyps : buffer_ok (repeat 7 64) /\ pieces_ok [([97], [1; 2; 3]); ([98; 99], [4; 5])] /\
  all_safe 0 [([97], [1; 2; 3]); ([98; 99], [4; 5])].
Proof.
  split; [split; [|reflexivity]|split].
  - apply Forall_forall. intros x Hx. apply repeat_spec in Hx. subst x. reflexivity.
  - repeat constructor.
  - vm_compute. lia.
Qed.
