(** The sponge of sha3.c: blocks, padding and the digest, and messages that arrive
    in pieces. *)
From Coq Require Import List Arith NArith Bool Lia ZifyBool ZifyNat ZifyN.
From Verif Require Import Bytes Sha3Model Sha3Spec Sha3Proofs.
Import ListNotations.
Open Scope N_scope.

Definition rate_ok (bs : nat) : Prop := (bs = 144 \/ bs = 136 \/ bs = 104 \/ bs = 72)%nat.
(** All the proofs need to know of the block size. *)
Lemma rate_facts bs : rate_ok bs -> (72 <= bs <= 144)%nat /\ exists k, (bs = 8 * k /\ 9 <= k <= 18)%nat.
Proof. intros [-> | [-> | [-> | ->]]]; (split; [lia|]); [exists 18%nat|exists 17%nat|exists 13%nat|exists 9%nat]; lia. Qed.

(** Lanes of a block. *)
Lemma upd_length : forall l i v, length (upd l i v) = length l.
Proof. induction l as [|a l IH]; intros [|i] v; cbn [upd length]; auto. Qed.
Lemma nth_upd : forall l i v j, (i < length l)%nat ->
  nth j (upd l i v) 0 = if Nat.eqb j i then v else nth j l 0.
Proof.
  induction l as [|a l IH]; intros [|i] v j H; cbn [length] in H; try lia; cbn [upd].
  - destruct j; reflexivity.
  - destruct j as [|j]; [reflexivity|]. cbn [nth]. rewrite IH by lia. reflexivity.
Qed.
Lemma absorb_lanes_length blk : forall is h, length (absorb_lanes h blk is) = length h.
Proof.
  induction is as [|i is IH]; intros h; [reflexivity|].
  unfold absorb_lanes. rewrite fold_cons. fold (absorb_lanes (xor_lane h i (word blk i)) blk is).
  rewrite IH. apply upd_length.
Qed.
Lemma absorb_lanes_nth blk : forall n a h j, (a + n <= length h)%nat ->
  nth j (absorb_lanes h blk (seq a n)) 0
  = if (Nat.leb a j && Nat.ltb j (a + n))%bool then N.lxor (nth j h 0) (word blk j) else nth j h 0.
Proof.
  induction n as [|n IH]; intros a h j H.
  - replace (Nat.leb a j && Nat.ltb j (a + 0))%bool with false by lia. reflexivity.
  - cbn [seq]. unfold absorb_lanes. rewrite fold_cons.
    fold (absorb_lanes (xor_lane h a (word blk a)) blk (seq (S a) n)).
    rewrite IH by (unfold xor_lane; rewrite upd_length; lia).
    unfold xor_lane. rewrite nth_upd by lia.
    destruct (Nat.eqb_spec j a) as [E|E].
    + subst. replace (Nat.leb (S a) a) with false by lia. cbn [andb].
      replace (Nat.leb a a && Nat.ltb a (a + S n))%bool with true by lia. reflexivity.
    + replace (Nat.leb (S a) j && Nat.ltb j (S a + n))%bool
        with (Nat.leb a j && Nat.ltb j (a + S n))%bool by lia. reflexivity.
Qed.
Lemma absorb_lanes_app h blk a b : absorb_lanes (absorb_lanes h blk a) blk b = absorb_lanes h blk (a ++ b).
Proof. unfold absorb_lanes. symmetry. apply fold_left_app. Qed.
Lemma process_lanes h blk bs : rate_ok bs ->
  process_block h blk bs = permutation (absorb_lanes h blk (seq 0 (bs / 8))).
Proof.
  intros R. unfold process_block. f_equal.
  destruct R as [-> | [-> | [-> | ->]]].
  - change (Nat.ltb 72 144) with true. change (Nat.ltb 104 144) with true. change (Nat.ltb 136 144) with true.
    cbv iota. rewrite !absorb_lanes_app. f_equal.
  - change (Nat.ltb 72 136) with true. change (Nat.ltb 104 136) with true. change (Nat.ltb 136 136) with false.
    cbv iota. rewrite !absorb_lanes_app. f_equal.
  - change (Nat.ltb 72 104) with true. change (Nat.ltb 104 104) with false.
    cbv iota. rewrite !absorb_lanes_app. f_equal.
  - change (Nat.ltb 72 72) with false. cbv iota. reflexivity.
Qed.

(** Bits of bytes and words. *)
Lemma unle_bit : forall l n, bytes_ok l ->
  N.testbit (unle l) (N.of_nat n) = N.testbit (nth (n / 8) l 0) (N.of_nat (n mod 8)).
Proof.
  induction l as [|b l IH]; intros n H.
  - cbn [unle]. rewrite N.bits_0. destruct (n / 8)%nat; cbn [nth]; rewrite N.bits_0; reflexivity.
  - inversion H as [|? ? Hb Hl]; subst. unfold is_byte in Hb. cbn [unle].
    destruct (Nat.lt_ge_cases n 8) as [L|L].
    + rewrite Nat.div_small, Nat.mod_small by auto. cbn [nth].
      rewrite <- (N.mod_pow2_bits_low (b + 256 * unle l) 8 (N.of_nat n)) by lia.
      change (2 ^ 8) with 256. rewrite (N.mul_comm 256), N.mod_add, N.mod_small by lia. reflexivity.
    + replace n with (n - 8 + 1 * 8)%nat at 2 3 by lia.
      rewrite Nat.div_add, Nat.mod_add by lia. rewrite Nat.add_1_r. cbn [nth].
      rewrite <- IH by auto.
      replace (N.of_nat n) with (N.of_nat (n - 8) + 8) by lia.
      rewrite <- (N.div_pow2_bits (b + 256 * unle l) 8). f_equal. change (2 ^ 8) with 256.
      rewrite (N.mul_comm 256), N.div_add, N.div_small by lia. reflexivity.
Qed.
Lemma nth_firstn {A} (d : A) : forall n l i, nth i (firstn n l) d = if Nat.ltb i n then nth i l d else d.
Proof.
  induction n as [|n IH]; intros l i.
  - cbn [firstn]. destruct i; reflexivity.
  - destruct l as [|a l]; [destruct i; cbn [firstn nth]; destruct (Nat.ltb _ _); reflexivity|].
    destruct i as [|i]; [reflexivity|]. cbn [firstn nth]. rewrite IH.
    replace (Nat.ltb (S i) (S n)) with (Nat.ltb i n) by lia. reflexivity.
Qed.
Lemma nth_skipn {A} (d : A) : forall n l i, nth i (skipn n l) d = nth (n + i) l d.
Proof.
  induction n as [|n IH]; intros l i; [reflexivity|].
  destruct l as [|a l]; [destruct i; reflexivity|]. cbn [skipn Nat.add nth]. apply IH.
Qed.
Lemma skipn_skipn {A} : forall n m (l : list A), skipn n (skipn m l) = skipn (n + m) l.
Proof.
  intros n m. revert n. induction m as [|m IH]; intros n l.
  - rewrite Nat.add_0_r. reflexivity.
  - destruct l as [|a l]; [cbn [skipn]; rewrite !skipn_nil; reflexivity|].
    rewrite Nat.add_succ_r. cbn [skipn]. apply IH.
Qed.
Lemma Forall_firstn {A} (P : A -> Prop) n l : Forall P l -> Forall P (firstn n l).
Proof.
  intros H. rewrite <- (firstn_skipn n l) in H. apply Forall_app in H. apply H.
Qed.
Lemma Forall_skipn {A} (P : A -> Prop) n l : Forall P l -> Forall P (skipn n l).
Proof.
  intros H. rewrite <- (firstn_skipn n l) in H. apply Forall_app in H. apply H.
Qed.
Lemma word_bit blk i z : bytes_ok blk -> (z < 64)%nat ->
  N.testbit (word blk i) (N.of_nat z) = N.testbit (nth (8 * i + z / 8) blk 0) (N.of_nat (z mod 8)).
Proof.
  intros H Hz. unfold word. rewrite unle_bit by (apply Forall_firstn, Forall_skipn; auto).
  rewrite nth_firstn, nth_skipn. assert (z / 8 < 8)%nat by (apply Nat.div_lt_upper_bound; lia).
  replace (Nat.ltb (z / 8) 8) with true by lia. reflexivity.
Qed.
Lemma word_64 blk i : bytes_ok blk -> word blk i < 2 ^ 64.
Proof.
  intros H. unfold word. assert (B : bytes_ok (firstn 8 (skipn (8 * i) blk))) by (apply Forall_firstn, Forall_skipn; auto).
  apply unle_bound in B. eapply N.lt_le_trans; [exact B|].
  change (2 ^ 64) with (256 ^ 8). apply N.pow_le_mono_r; [lia|].
  pose proof (firstn_le_length 8 (skipn (8 * i) blk)). lia.
Qed.
Lemma bits_cons b l : bits (b :: l) = map (fun i => N.testbit b (N.of_nat i)) (seq 0 8) ++ bits l.
Proof. reflexivity. Qed.
Lemma bits_length l : length (bits l) = (8 * length l)%nat.
Proof.
  induction l as [|b l IH]; [reflexivity|].
  rewrite bits_cons, app_length, map_length, seq_length, IH. cbn [length]. lia.
Qed.
Lemma bits_app a b : bits (a ++ b) = bits a ++ bits b.
Proof. unfold bits. apply flat_map_app. Qed.
Lemma nth_bits : forall l j, nth j (bits l) false = N.testbit (nth (j / 8) l 0) (N.of_nat (j mod 8)).
Proof.
  induction l as [|b l IH]; intros j.
  - replace (nth (j / 8) [] 0) with 0 by (destruct (j / 8)%nat; reflexivity).
    rewrite N.bits_0. destruct j; reflexivity.
  - rewrite bits_cons. destruct (Nat.lt_ge_cases j 8) as [L|L].
    + rewrite app_nth1 by (rewrite map_length, seq_length; auto).
      rewrite Nat.div_small, Nat.mod_small by auto. cbn [nth].
      rewrite (nth_indep _ false (N.testbit b (N.of_nat 0))) by (rewrite map_length, seq_length; auto).
      rewrite (map_nth (fun i => N.testbit b (N.of_nat i))), seq_nth by auto. reflexivity.
    + rewrite app_nth2 by (rewrite map_length, seq_length; auto).
      rewrite map_length, seq_length, IH.
      replace j with (j - 8 + 1 * 8)%nat at 3 4 by lia.
      rewrite Nat.div_add, Nat.mod_add by lia. rewrite Nat.add_1_r. reflexivity.
Qed.
Lemma bits_firstn n l : firstn (8 * n) (bits l) = bits (firstn n l).
Proof.
  rewrite <- (firstn_skipn n l) at 1. rewrite bits_app.
  destruct (Nat.le_gt_cases n (length l)) as [L|L].
  - assert (E : length (bits (firstn n l)) = (8 * n)%nat) by (rewrite bits_length, firstn_length_le; auto).
    rewrite <- E. rewrite firstn_app, firstn_all, Nat.sub_diag. cbn [firstn]. apply app_nil_r.
  - rewrite (skipn_all2 (n := n) l) by lia. cbn [bits flat_map]. rewrite app_nil_r.
    apply firstn_all2. rewrite bits_length, firstn_length. lia.
Qed.
Lemma bits_skipn n l : skipn (8 * n) (bits l) = bits (skipn n l).
Proof.
  rewrite <- (firstn_skipn n l) at 1. rewrite bits_app.
  destruct (Nat.le_gt_cases n (length l)) as [L|L].
  - assert (E : length (bits (firstn n l)) = (8 * n)%nat) by (rewrite bits_length, firstn_length_le; auto).
    rewrite <- E. rewrite skipn_app, skipn_all, Nat.sub_diag. reflexivity.
  - rewrite (skipn_all2 (n := n) l) by lia. cbn [bits flat_map]. rewrite app_nil_r.
    apply skipn_all2. rewrite bits_length, firstn_length. lia.
Qed.

(** One block. *)
Lemma process_spec h S blk bs : rate_ok bs -> bytes_ok blk -> holds h S ->
  holds (process_block h blk bs)
        (keccak_f (fun i => xorb (S i) (nth i (firstn (8 * bs) (bits blk)) false))).
Proof.
  intros R B (Hl & Hf & Hb). rewrite process_lanes by auto. apply permutation_spec.
  destruct (rate_facts bs R) as (_ & k & -> & Hk).
  rewrite (Nat.mul_comm 8 k), Nat.div_mul by lia.
  assert (Hn : forall j, nth j (absorb_lanes h blk (seq 0 k)) 0
    = if Nat.ltb j k then N.lxor (nth j h 0) (word blk j) else nth j h 0).
  { intros j. rewrite absorb_lanes_nth by lia. reflexivity. }
  split; [|split].
  - rewrite absorb_lanes_length. auto.
  - apply Forall_forall. intros q Hq. apply (In_nth _ _ 0) in Hq. destruct Hq as (j & Hj & <-).
    rewrite absorb_lanes_length, Hl in Hj. rewrite Hn. rewrite Forall_forall in Hf.
    assert (nth j h 0 < 2 ^ 64) by (apply Hf, nth_In; lia).
    destruct (Nat.ltb j k); [apply lxor_64; auto; apply word_64; auto|auto].
  - intros i Hi. rewrite Hn. rewrite <- (Hb i Hi). rewrite nth_firstn, nth_bits.
    destruct (Nat.ltb_spec (i / 64) k) as [L|L].
    + rewrite N.lxor_spec, word_bit by (auto; apply Nat.mod_upper_bound; lia). f_equal.
      assert (Hlt : (i < 8 * (k * 8))%nat).
      { pose proof (Nat.div_mod i 64). pose proof (Nat.mod_upper_bound i 64). lia. }
      replace (Nat.ltb i (8 * (k * 8))) with true by lia.
      f_equal; [f_equal; lia|lia].
    + replace (Nat.ltb i (8 * (k * 8))) with false.
      * rewrite xorb_false_r. reflexivity.
      * pose proof (Nat.div_mod i 64). pose proof (Nat.mod_upper_bound i 64). lia.
Qed.
Lemma process_prefix h blk blk' bs : rate_ok bs -> firstn bs blk = firstn bs blk' ->
  process_block h blk bs = process_block h blk' bs.
Proof.
  intros R E. rewrite !process_lanes by auto. f_equal.
  destruct (rate_facts bs R) as (_ & k & -> & Hk). rewrite (Nat.mul_comm 8 k), Nat.div_mul by lia.
  rewrite (Nat.mul_comm 8 k) in E.
  assert (W : forall i, (i < k)%nat -> word blk i = word blk' i).
  { intros i Hi. unfold word. f_equal.
    assert (F : forall b : list N, firstn 8 (skipn (8 * i) b) = firstn 8 (skipn (8 * i) (firstn (k * 8) b))).
    { intros b. rewrite skipn_firstn_comm, firstn_firstn. f_equal. lia. }
    rewrite (F blk), (F blk'), E. reflexivity. }
  assert (G : forall is h, (forall i, In i is -> (i < k)%nat) -> absorb_lanes h blk is = absorb_lanes h blk' is).
  { induction is as [|i is IH]; intros g Hi; [reflexivity|].
    unfold absorb_lanes. rewrite !fold_cons. rewrite (W i) by (apply Hi; left; auto).
    apply IH. intros. apply Hi. right. auto. }
  apply G. intros i Hi. apply in_seq in Hi. lia.
Qed.

(** Several blocks. *)
Fixpoint chunks {A : Type} (f : A -> list N -> A) (bs n : nat) (M : list N) (a : A) : A :=
  match n with O => a | S n => chunks f bs n (skipn bs M) (f a M) end.
Lemma chunks_S {A} (f : A -> list N -> A) bs n M a : chunks f bs (S n) M a = chunks f bs n (skipn bs M) (f a M).
Proof. reflexivity. Qed.
Definition absorbN (bs n : nat) (M h : list N) : list N := chunks (fun h M => process_block h M bs) bs n M h.
Lemma absorbN_S bs n M h : absorbN bs (S n) M h = absorbN bs n (skipn bs M) (process_block h M bs).
Proof. exact (chunks_S (fun h M => process_block h M bs) bs n M h). Qed.
Lemma absorb_S r n P s : absorb r (S n) P s
  = absorb r n (skipn r P) (keccak_f (fun i => xorb (s i) (nth i (firstn r P) false))).
Proof. reflexivity. Qed.
Lemma absorbN_spec bs : rate_ok bs -> forall n M h S, bytes_ok M -> holds h S ->
  holds (absorbN bs n M h) (absorb (8 * bs) n (bits M) S).
Proof.
  intros R. induction n as [|n IH]; intros M h S B H; [exact H|].
  rewrite absorbN_S, absorb_S, bits_skipn. apply IH; [apply Forall_skipn; auto|].
  apply process_spec; auto.
Qed.
Lemma absorbN_ext bs : rate_ok bs -> forall n M M' h, firstn (n * bs) M = firstn (n * bs) M' ->
  absorbN bs n M h = absorbN bs n M' h.
Proof.
  intros R. induction n as [|n IH]; intros M M' h E; [reflexivity|]. rewrite !absorbN_S.
  assert (E1 : firstn bs M = firstn bs M').
  { apply (f_equal (firstn bs)) in E. rewrite !firstn_firstn in E.
    replace (Nat.min bs (S n * bs)) with bs in E by lia. exact E. }
  rewrite (process_prefix h M M' bs R E1). apply IH.
  apply (f_equal (skipn bs)) in E. rewrite !skipn_firstn_comm in E.
  replace (S n * bs - bs)%nat with (n * bs)%nat in E by lia. exact E.
Qed.
Lemma absorbN_snoc bs : forall n M h,
  absorbN bs (S n) M h = process_block (absorbN bs n M h) (skipn (n * bs) M) bs.
Proof.
  induction n as [|n IH]; intros M h; [reflexivity|].
  rewrite absorbN_S, IH, absorbN_S, skipn_skipn. replace (n * bs + bs)%nat with (S n * bs)%nat by lia. reflexivity.
Qed.
Lemma absorbN_add bs : forall n m M h,
  absorbN bs (n + m) M h = absorbN bs m (skipn (n * bs) M) (absorbN bs n M h).
Proof.
  induction n as [|n IH]; intros m M h; [reflexivity|].
  change (S n + m)%nat with (S (n + m)). rewrite !absorbN_S, IH, skipn_skipn.
  replace (n * bs + bs)%nat with (S n * bs)%nat by lia. reflexivity.
Qed.

(** Contexts between calls: what has been fed so far is [M]. *)
Definition h0 : list N := repeat 0 25.
Definition fed (ctx : sha3_ctx) (M : list N) : Prop :=
  let bs := s_bs ctx in
  rate_ok bs /\ bytes_ok M /\ bytes_ok (s_msg ctx) /\ length (s_msg ctx) = 192%nat /\
  s_rest ctx = N.of_nat (length M mod bs) /\
  s_hash ctx = absorbN bs (length M / bs) M h0 /\
  firstn (length M mod bs) (s_msg ctx) = skipn (length M / bs * bs) M.

Lemma put_ok buf i l : (i + length l <= length buf)%nat ->
  put buf i l = Some (firstn i buf ++ l ++ skipn (i + length l) buf).
Proof. intros H. unfold put. replace (Nat.leb _ _) with true by lia. reflexivity. Qed.
Lemma put_length' buf i l b : put buf i l = Some b -> length b = length buf.
Proof.
  unfold put. destruct (Nat.leb_spec (i + length l) (length buf)) as [L|L]; [|discriminate].
  intros E. injection E as <-. rewrite !app_length, firstn_length_le, skipn_length by lia. lia.
Qed.
Lemma put_bytes' buf i l b : bytes_ok buf -> bytes_ok l -> put buf i l = Some b -> bytes_ok b.
Proof.
  intros H1 H2. unfold put. destruct (Nat.leb _ _); [|discriminate]. intros E. injection E as <-.
  apply Forall_app. split; [apply Forall_firstn; auto|]. apply Forall_app. split; auto. apply Forall_skipn; auto.
Qed.

(** The loop over whole blocks. *)
Lemma blocks_ok bs : rate_ok bs -> forall fuel hash buf addr msg,
  (length msg < fuel)%nat -> bytes_ok msg -> bytes_ok buf -> length buf = 192%nat ->
  exists buf', sha3_blocks fuel hash buf bs addr msg = Some (absorbN bs (length msg / bs) msg hash, buf')
    /\ bytes_ok buf' /\ length buf' = 192%nat
    /\ firstn (length msg mod bs) buf' = skipn (length msg / bs * bs) msg.
Proof.
  intros R. destruct (rate_facts bs R) as [Hbs _].
  induction fuel as [|fuel IH]; intros hash buf addr msg Hf B Bb Hb; [lia|].
  cbn [sha3_blocks]. destruct (Nat.leb_spec bs (length msg)) as [L|L].
  - assert (Hd : (length msg / bs = S (length (skipn bs msg) / bs))%nat).
    { rewrite skipn_length. replace (length msg) with (length msg - bs + 1 * bs)%nat at 1 by lia.
      rewrite Nat.div_add by lia. lia. }
    assert (Hm : (length msg mod bs = length (skipn bs msg) mod bs)%nat).
    { rewrite skipn_length. replace (length msg) with (length msg - bs + 1 * bs)%nat at 1 by lia.
      rewrite Nat.mod_add by lia. reflexivity. }
    rewrite Hd, Hm, absorbN_S. cbn [Nat.mul].
    rewrite Nat.add_comm, <- skipn_skipn, (Nat.mul_comm _ bs), (Nat.mul_comm bs).
    assert (Hs : (length (skipn bs msg) < fuel)%nat) by (rewrite skipn_length; lia).
    assert (Bs : bytes_ok (skipn bs msg)) by (apply Forall_skipn; auto).
    destruct (N.land 7 addr =? 0).
    + apply IH; auto.
    + rewrite put_ok by (rewrite firstn_length; lia).
      rewrite firstn_length_le by auto.
      set (buf2 := firstn 0 buf ++ firstn bs msg ++ skipn (0 + bs) buf).
      assert (E : firstn bs buf2 = firstn bs msg).
      { unfold buf2. cbn [firstn app]. rewrite firstn_app, firstn_firstn, Nat.min_id.
        rewrite firstn_length_le by auto. rewrite Nat.sub_diag. cbn [firstn]. apply app_nil_r. }
      rewrite (process_prefix hash buf2 msg bs R E).
      apply IH; auto.
      * unfold buf2. cbn [firstn app]. apply Forall_app. split; [apply Forall_firstn; auto|apply Forall_skipn; auto].
      * unfold buf2. cbn [firstn app]. rewrite app_length, firstn_length_le, skipn_length by auto. lia.
  - rewrite Nat.div_small, Nat.mod_small by auto. cbn [Nat.mul skipn].
    destruct msg as [|b msg].
    + exists buf. auto.
    + set (m := b :: msg) in *. rewrite put_ok by lia.
      eexists. split; [reflexivity|]. cbn [firstn app]. split; [|split].
      * apply Forall_app. split; auto. apply Forall_skipn; auto.
      * rewrite app_length, skipn_length. lia.
      * rewrite firstn_app, firstn_all, Nat.sub_diag. cbn [firstn]. apply app_nil_r.
Qed.

Lemma not_final n : n < 2 ^ 31 -> N.land n FINALIZED = 0.
Proof.
  intros H. change FINALIZED with (2 ^ 31). apply N.bits_inj. intros i. rewrite N.land_spec, N.bits_0.
  destruct (N.eq_dec i 31) as [->|Hi].
  - destruct (N.eq_dec n 0) as [->|Hz]; [reflexivity|].
    rewrite N.bits_above_log2; [reflexivity|]. apply N.log2_lt_pow2; [lia|auto].
  - rewrite N.pow2_bits_false by auto. apply andb_false_r.
Qed.

Lemma fed_init bits : (bits = 224 \/ bits = 256 \/ bits = 384 \/ bits = 512)%nat -> fed (sha3_init bits) [].
Proof.
  intros Hb. unfold fed, sha3_init. cbn [s_bs s_rest s_hash s_msg length].
  assert (R : rate_ok ((1600 - bits * 2) / 8)).
  { unfold rate_ok. destruct Hb as [-> | [-> | [-> | ->]]].
    - left. reflexivity.
    - right; left. reflexivity.
    - right; right; left. reflexivity.
    - right; right; right. reflexivity. }
  destruct (rate_facts _ R) as [Hbs _].
  rewrite Nat.mod_0_l, Nat.div_0_l by lia.
  split; [exact R|]. split; [constructor|]. split; [|split; [apply repeat_length|split; [reflexivity|split; reflexivity]]].
  apply Forall_forall. intros x Hx. apply repeat_spec in Hx. subst. reflexivity.
Qed.

Lemma rest_mod bs q r n : (72 <= bs <= 144)%nat -> (r < bs)%nat -> N.of_nat n <= 2 ^ 63 ->
  ((N.of_nat r + N.of_nat n) mod 2 ^ 64) mod N.of_nat bs = N.of_nat ((q * bs + r + n) mod bs).
Proof.
  intros Hb Hr Hn. rewrite (N.mod_small _ (2 ^ 64)).
  - replace (q * bs + r + n)%nat with (r + n + q * bs)%nat by lia.
    rewrite Nat.mod_add by lia. rewrite <- Nat2N.inj_add, Nat2N.inj_mod. reflexivity.
  - change (2 ^ 64) with (2 ^ 63 + 2 ^ 63).
    apply (N.le_lt_trans _ (144 + 2 ^ 63)).
    + apply N.add_le_mono; [lia|exact Hn].
    + apply N.add_lt_mono_r. reflexivity.
Qed.
Lemma small_rest bs r : (bs <= 144)%nat -> (r < bs)%nat -> N.of_nat r < 2 ^ 31.
Proof. intros H1 H2. apply (N.lt_trans _ 145); [lia|reflexivity]. Qed.
Definition fits (m : list N) : Prop := bytes_ok m /\ N.of_nat (length m) <= 2 ^ 63.
Ltac qlia := repeat match goal with
  | H : context [(_ / _)%nat] |- _ => clear H
  | H : context [(_ mod _)%nat] |- _ => clear H
  | H : context [absorbN] |- _ => clear H
  | H : bytes_ok _ |- _ => clear H
  | H : _ = _ :> list N |- _ => clear H
  end; lia.
Lemma fed_update ctx M addr m : fed ctx M -> fits m ->
  exists ctx', sha3_update ctx addr m = Some ctx' /\ fed ctx' (M ++ m) /\ s_bs ctx' = s_bs ctx.
Proof.
  intros (R & BM & Bb & Hb & Hr & Hh & Hc) [Bm Hsz].
  destruct (rate_facts _ R) as [Hbs _].
  set (bs := s_bs ctx) in *.
  assert (Hml : (length M mod bs < bs)%nat) by (apply Nat.mod_upper_bound; lia).
  unfold sha3_update. rewrite Hr, not_final by (apply (small_rest bs); tauto). cbn [N.eqb negb]. fold bs.
  rewrite Nat2N.id.
  set (q := (length M / bs)%nat) in *. set (r := (length M mod bs)%nat) in *.
  assert (HM : length M = (q * bs + r)%nat) by (unfold q, r; pose proof (Nat.div_mod (length M) bs); lia).
  clearbody q r bs.
  assert (Hrest : ((N.of_nat r + N.of_nat (length m)) mod 2 ^ 64) mod N.of_nat bs
                  = N.of_nat (length (M ++ m) mod bs)).
  { rewrite app_length, HM. apply rest_mod; auto. }
  clear Hsz Hr.
  rewrite Hrest.
  assert (BMm : bytes_ok (M ++ m)) by (apply Forall_app; auto).
  destruct (Nat.eqb_spec r 0) as [E0|E0].
  - destruct (blocks_ok bs R (S (length m)) (s_hash ctx) (s_msg ctx) addr m ltac:(qlia) Bm Bb Hb)
      as (buf' & E & B' & Hl' & Hf').
    rewrite E. eexists. split; [reflexivity|]. split; [|reflexivity].
    unfold fed. cbn [s_bs s_rest s_hash s_msg].
    assert (Hq : (length (M ++ m) / bs = q + length m / bs)%nat).
    { rewrite app_length, HM, E0. replace (q * bs + 0 + length m)%nat with (length m + q * bs)%nat by qlia.
      rewrite Nat.div_add by qlia. qlia. }
    assert (Hm : (length (M ++ m) mod bs = length m mod bs)%nat).
    { rewrite app_length, HM, E0. replace (q * bs + 0 + length m)%nat with (length m + q * bs)%nat by qlia.
      apply Nat.mod_add. qlia. }
    assert (Hsk : skipn (q * bs) (M ++ m) = m).
    { replace (q * bs)%nat with (length M) by qlia. rewrite skipn_app, skipn_all, Nat.sub_diag. reflexivity. }
    split; [exact R|]. split; [exact BMm|]. split; [exact B'|]. split; [exact Hl'|]. split; [reflexivity|].
    split.
    + rewrite Hq, absorbN_add, Hsk. f_equal. rewrite Hh. apply absorbN_ext; auto.
      rewrite firstn_app. replace (q * bs - length M)%nat with 0%nat by qlia. cbn [firstn]. rewrite app_nil_r. reflexivity.
    + rewrite Hm, Hq, Hf'. rewrite Nat.mul_add_distr_r, (Nat.add_comm (q * bs)), <- skipn_skipn, Hsk. reflexivity.
  - set (n := if Nat.ltb (length m) (bs - r) then length m else (bs - r)%nat).
    assert (Hn : (n <= length m /\ n <= bs - r)%nat) by (unfold n; destruct (Nat.ltb_spec (length m) (bs - r)); qlia).
    rewrite put_ok by (rewrite firstn_length_le by qlia; qlia).
    rewrite firstn_length_le by qlia.
    set (buf := firstn r (s_msg ctx) ++ firstn n m ++ skipn (r + n) (s_msg ctx)).
    assert (Bbuf : bytes_ok buf).
    { unfold buf. apply Forall_app. split; [apply Forall_firstn; auto|]. apply Forall_app.
      split; [apply Forall_firstn; auto|apply Forall_skipn; auto]. }
    assert (Lbuf : length buf = 192%nat).
    { unfold buf. rewrite !app_length, !firstn_length_le, skipn_length by qlia. qlia. }
    assert (Hpre : firstn (r + n) buf = skipn (q * bs) M ++ firstn n m).
    { unfold buf. rewrite app_assoc, firstn_app.
      rewrite firstn_all2 by (rewrite app_length, !firstn_length_le by qlia; qlia).
      rewrite app_length, !firstn_length_le by qlia. rewrite Nat.sub_diag. cbn [firstn].
      rewrite app_nil_r, Hc. reflexivity. }
    assert (Hsk : skipn (q * bs) (M ++ m) = skipn (q * bs) M ++ m).
    { rewrite skipn_app. replace (q * bs - length M)%nat with 0%nat by qlia. reflexivity. }
    assert (Habs : absorbN bs q M h0 = absorbN bs q (M ++ m) h0).
    { apply absorbN_ext; auto. rewrite firstn_app. replace (q * bs - length M)%nat with 0%nat by qlia.
      cbn [firstn]. rewrite app_nil_r. reflexivity. }
    destruct (Nat.ltb_spec (length m) (bs - r)) as [L|L].
    + eexists. split; [reflexivity|]. split; [|reflexivity].
      unfold fed. cbn [s_bs s_rest s_hash s_msg].
      assert (Hq : (length (M ++ m) / bs = q)%nat).
      { rewrite app_length, HM. replace (q * bs + r + length m)%nat with (r + length m + q * bs)%nat by qlia.
        rewrite Nat.div_add, Nat.div_small by qlia. qlia. }
      assert (Hm : (length (M ++ m) mod bs = r + n)%nat).
      { rewrite app_length, HM. replace (q * bs + r + length m)%nat with (r + length m + q * bs)%nat by qlia.
        rewrite Nat.mod_add, Nat.mod_small by qlia. unfold n. qlia. }
      split; [exact R|]. split; [exact BMm|]. split; [exact Bbuf|]. split; [exact Lbuf|]. split; [reflexivity|].
      rewrite Hq. split.
      * rewrite Hh. exact Habs.
      * rewrite Hm, Hpre, Hsk. f_equal. apply firstn_all2. unfold n. qlia.
    + assert (En : n = (bs - r)%nat) by (unfold n; qlia). clearbody n. subst n.
      assert (Bs : bytes_ok (skipn (bs - r) m)) by (apply Forall_skipn; auto).
      destruct (blocks_ok bs R (S (length (skipn (bs - r) m))) (process_block (s_hash ctx) buf bs) buf
                  (addr + N.of_nat (bs - r)) (skipn (bs - r) m) ltac:(qlia) Bs Bbuf Lbuf)
        as (buf' & E & B' & Hl' & Hf').
      rewrite E. eexists. split; [reflexivity|]. split; [|reflexivity].
      unfold fed. cbn [s_bs s_rest s_hash s_msg].
      set (m' := skipn (bs - r) m) in *.
      assert (Hlm : length m = (bs - r + length m')%nat) by (unfold m'; rewrite skipn_length; qlia).
      assert (Hq : (length (M ++ m) / bs = S q + length m' / bs)%nat).
      { rewrite app_length, HM, Hlm.
        replace (q * bs + r + (bs - r + length m'))%nat with (length m' + S q * bs)%nat by qlia.
        rewrite Nat.div_add by qlia. qlia. }
      assert (Hm : (length (M ++ m) mod bs = length m' mod bs)%nat).
      { rewrite app_length, HM, Hlm.
        replace (q * bs + r + (bs - r + length m'))%nat with (length m' + S q * bs)%nat by qlia.
        apply Nat.mod_add. qlia. }
      assert (Hsk2 : skipn (S q * bs) (M ++ m) = m').
      { replace (S q * bs)%nat with (length M + (bs - r))%nat by qlia.
        rewrite skipn_app. rewrite skipn_all2 by qlia. cbn [app]. unfold m'. f_equal. qlia. }
      split; [exact R|]. split; [exact BMm|]. split; [exact B'|]. split; [exact Hl'|]. split; [reflexivity|].
      split.
      * rewrite Hq, absorbN_add, Hsk2. f_equal. rewrite absorbN_snoc, <- Habs, <- Hh.
        apply process_prefix; auto. rewrite Hsk.
        replace (r + (bs - r))%nat with bs in Hpre by qlia. rewrite Hpre.
        rewrite firstn_app. rewrite (firstn_all2 (skipn (q * bs) M)) by (rewrite skipn_length; qlia).
        f_equal. f_equal. rewrite skipn_length. qlia.
      * rewrite Hm, Hq, Hf'. rewrite Nat.mul_add_distr_r, (Nat.add_comm (S q * bs)), <- skipn_skipn, Hsk2. reflexivity.
Qed.
