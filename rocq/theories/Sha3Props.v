(** C45 (for SHA-3) and C76: the digest is the one of FIPS 202 and does not depend
    on how the message is cut into pieces nor on where the pieces lie in memory. *)
From Coq Require Import List Arith NArith Bool Lia ZifyBool ZifyNat ZifyN.
From Verif Require Import Bytes Sha3Model Sha3Spec Sha3Proofs Sha3Proofs2.
Import ListNotations.
Open Scope N_scope.

(** The padding as bytes. *)
Definition padb (n : nat) : list N :=
  match n with
  | O => [] | S O => [0x86] | S (S k) => [0x06] ++ repeat 0 k ++ [0x80]
  end.
Lemma padb_length n : length (padb n) = n.
Proof. destruct n as [|[|n]]; [reflexivity|reflexivity|]. unfold padb. rewrite !app_length, repeat_length. cbn [length]. lia. Qed.
Lemma padb_bytes n : bytes_ok (padb n).
Proof.
  destruct n as [|[|n]]; [constructor|repeat constructor|]. unfold padb.
  apply Forall_app. split; [repeat constructor|]. apply Forall_app. split; [|repeat constructor].
  apply Forall_forall. intros x Hx. apply repeat_spec in Hx. subst. reflexivity.
Qed.
Lemma bits_zeros n : bits (repeat 0 n) = repeat false (8 * n).
Proof.
  induction n as [|n IH]; [reflexivity|].
  replace (8 * S n)%nat with (8 + 8 * n)%nat by lia. rewrite repeat_app, <- IH. reflexivity.
Qed.
Lemma bits_pad n : (0 < n)%nat -> bits (padb n) = [false; true; true] ++ repeat false (8 * n - 4) ++ [true].
Proof.
  intros H. destruct n as [|[|n]]; [lia|reflexivity|]. unfold padb. rewrite !bits_app, bits_zeros.
  replace (8 * S (S n) - 4)%nat with (5 + (8 * n + 7))%nat by lia. rewrite !repeat_app.
  change (bits [6]) with ([false; true; true] ++ repeat false 5).
  change (bits [128]) with (repeat false 7 ++ [true]). rewrite <- !app_assoc. reflexivity.
Qed.
Lemma pad_spec bs M : (0 < bs)%nat ->
  let n := (bs - length M mod bs)%nat in
  let N := bits M ++ [false; true] in
  N ++ pad101 (8 * bs) (length N) = bits (M ++ padb n).
Proof.
  intros Hbs n N. pose proof (Nat.mod_upper_bound (length M) bs ltac:(lia)) as Hr.
  rewrite bits_app, bits_pad by (unfold n; lia). unfold N. rewrite <- app_assoc. f_equal.
  unfold pad101. change [false; true; true] with ([false; true] ++ [true]). rewrite <- !app_assoc.
  do 4 f_equal. rewrite app_length, bits_length. cbn [length].
  assert (E : ((8 * length M + 2 + 2) mod (8 * bs) = 8 * (length M mod bs) + 4)%nat).
  { pose proof (Nat.div_mod (length M) bs ltac:(lia)) as D.
    replace (8 * length M + 2 + 2)%nat with (8 * (length M mod bs) + 4 + length M / bs * (8 * bs))%nat by lia.
    rewrite Nat.mod_add by lia. apply Nat.mod_small. lia. }
  rewrite E. rewrite Nat.mod_small by lia. unfold n. lia.
Qed.

(** The digest bytes. *)
Lemma le_bit : forall n v k b, (k < n)%nat -> (b < 8)%nat ->
  N.testbit (nth k (le n v) 0) (N.of_nat b) = N.testbit v (N.of_nat (8 * k + b)).
Proof.
  induction n as [|n IH]; intros v k b Hk Hb; [lia|]. cbn [le]. destruct k as [|k].
  - cbn [nth]. change 256 with (2 ^ 8). rewrite N.mod_pow2_bits_low by lia. f_equal.
  - cbn [nth]. rewrite IH by lia. change 256 with (2 ^ 8). rewrite N.div_pow2_bits. f_equal. lia.
Qed.
Lemma words_length h : length (flat_map (le 8) h) = (8 * length h)%nat.
Proof. induction h as [|a h IH]; [reflexivity|]. cbn [flat_map]. rewrite app_length, le_length, IH. cbn [length]. lia. Qed.
Lemma words_bytes h : bytes_ok (flat_map (le 8) h).
Proof. induction h as [|a h IH]; [constructor|]. cbn [flat_map]. apply Forall_app. split; [apply le_ok|auto]. Qed.
Lemma words_nth : forall h j, (j < 8 * length h)%nat ->
  nth j (flat_map (le 8) h) 0 = nth (j mod 8) (le 8 (nth (j / 8) h 0)) 0.
Proof.
  induction h as [|a h IH]; intros j Hj; cbn [length] in Hj; [lia|]. cbn [flat_map].
  destruct (Nat.lt_ge_cases j 8) as [L|L].
  - rewrite app_nth1 by (rewrite le_length; auto). rewrite Nat.div_small, Nat.mod_small by auto. reflexivity.
  - rewrite app_nth2 by (rewrite le_length; auto). rewrite le_length, IH by lia.
    replace j with (j - 8 + 1 * 8)%nat at 3 4 by lia. rewrite Nat.mod_add, Nat.div_add by lia.
    rewrite Nat.add_1_r. reflexivity.
Qed.
Lemma digest_bits h s n : holds h s -> (n <= 200)%nat ->
  bits (firstn n (flat_map (le 8) h)) = map s (seq 0 (8 * n)).
Proof.
  intros (Hl & Hf & Hb) Hn. apply (nth_ext _ _ false (s 0%nat)).
  - rewrite bits_length, firstn_length_le, map_length, seq_length; [reflexivity|]. rewrite words_length. lia.
  - intros i Hi. rewrite bits_length, firstn_length_le in Hi by (rewrite words_length; lia).
    rewrite map_nth, seq_nth by auto. cbn [Nat.add]. rewrite <- Hb by lia.
    rewrite nth_bits, nth_firstn. assert (i / 8 < n)%nat by (apply Nat.div_lt_upper_bound; lia).
    replace (Nat.ltb (i / 8) n) with true by lia.
    rewrite words_nth by lia. rewrite le_bit by (apply Nat.mod_upper_bound; lia).
    f_equal; [f_equal|]; lia.
Qed.

(** The last call. *)
Lemma pad_buffer bs r buf : (r < bs)%nat -> length buf = 192%nat -> (bs <= 144)%nat -> bytes_ok buf ->
  exists b1 b2 b3, put buf r (repeat 0 (bs - r)) = Some b1 /\ or_byte b1 r 0x06 = Some b2 /\
    or_byte b2 (bs - 1) 0x80 = Some b3 /\ bytes_ok b3 /\ firstn bs b3 = firstn r buf ++ padb (bs - r).
Proof.
  intros Hr Hl Hb B.
  set (pre := firstn r buf). set (post := skipn bs buf).
  assert (Lpre : length pre = r) by (apply firstn_length_le; lia).
  assert (Bpre : bytes_ok pre) by (apply Forall_firstn; auto).
  assert (Bpost : bytes_ok post) by (apply Forall_skipn; auto).
  assert (E1 : put buf r (repeat 0 (bs - r)) = Some (pre ++ repeat 0 (bs - r) ++ post)).
  { rewrite put_ok by (rewrite repeat_length; lia). rewrite repeat_length.
    replace (r + (bs - r))%nat with bs by lia. reflexivity. }
  assert (P1 : forall a c x y, length a = r -> put (a ++ x :: c) r [y] = Some (a ++ y :: c)).
  { intros a c x y Ha. rewrite <- Ha. change (x :: c) with ([x] ++ c). rewrite put_app by reflexivity. reflexivity. }
  destruct (bs - r)%nat as [|[|k]] eqn:Ek; [lia| |].
  - exists (pre ++ [0] ++ post), (pre ++ [6] ++ post), (pre ++ [0x86] ++ post).
    split; [exact E1|]. assert (Hbr : (bs - 1 = r)%nat) by lia. rewrite Hbr. split; [|split; [|split]].
    + unfold or_byte. cbn [app]. rewrite app_nth2, Lpre, Nat.sub_diag by lia. cbn [nth]. apply P1; auto.
    + unfold or_byte. cbn [app]. rewrite app_nth2, Lpre, Nat.sub_diag by lia. cbn [nth]. apply P1; auto.
    + apply Forall_app. split; auto. apply Forall_app. split; [repeat constructor|auto].
    + replace bs with (r + 1)%nat by lia. rewrite firstn_app, Lpre. rewrite firstn_all2 by lia.
      replace (r + 1 - r)%nat with 1%nat by lia. reflexivity.
  - exists (pre ++ repeat 0 (S (S k)) ++ post), (pre ++ [6] ++ repeat 0 (S k) ++ post),
      (pre ++ [6] ++ repeat 0 k ++ [0x80] ++ post).
    split; [exact E1|]. split; [|split; [|split]].
    + unfold or_byte. cbn [app repeat]. rewrite app_nth2, Lpre, Nat.sub_diag by lia. cbn [nth]. apply P1; auto.
    + unfold or_byte. replace (repeat 0 (S k)) with (repeat 0 k ++ [0]) by (symmetry; apply repeat_cons).
      set (a := pre ++ [6] ++ repeat 0 k).
      assert (La : length a = (bs - 1)%nat) by (unfold a; rewrite !app_length, repeat_length; cbn [length]; lia).
      replace (pre ++ [6] ++ (repeat 0 k ++ [0]) ++ post) with (a ++ [0] ++ post)
        by (unfold a; rewrite <- !app_assoc; reflexivity).
      rewrite app_nth2, La, Nat.sub_diag by lia. cbn [nth app].
      rewrite <- La. change (0 :: post) with ([0] ++ post). rewrite put_app by reflexivity.
      f_equal. unfold a. rewrite <- !app_assoc. reflexivity.
    + repeat (apply Forall_app; split; auto); try (repeat constructor).
      apply Forall_forall. intros x Hx. apply repeat_spec in Hx. subst x. reflexivity.
    + replace (pre ++ [6] ++ repeat 0 k ++ [128] ++ post) with ((pre ++ padb (S (S k))) ++ post)
        by (unfold padb; rewrite <- !app_assoc; reflexivity).
      rewrite firstn_app. rewrite firstn_all2 by (rewrite app_length, padb_length; lia).
      rewrite app_length, padb_length. replace (bs - (length pre + S (S k)))%nat with 0%nat by lia.
      cbn [firstn]. apply app_nil_r.
Qed.

Lemma holds_0 : holds h0 (fun _ => false).
Proof.
  split; [reflexivity|]. split.
  - apply Forall_forall. intros x Hx. apply repeat_spec in Hx. subst. reflexivity.
  - intros i Hi. unfold h0.
    assert (E : nth (i / 64) (repeat 0 25) 0 = 0).
    { destruct (Nat.lt_ge_cases (i / 64) 25) as [L|L].
      - apply (repeat_spec 25 0), nth_In. rewrite repeat_length. auto.
      - apply nth_overflow. rewrite repeat_length. auto. }
    rewrite E. apply N.bits_0.
Qed.

Lemma fed_final ctx M : fed ctx M -> exists ctx' out,
  sha3_final ctx = Some (ctx', out) /\ bytes_ok out /\ length out = (100 - s_bs ctx / 2)%nat /\
  bits out = sponge (8 * s_bs ctx) (bits M ++ [false; true]) (8 * (100 - s_bs ctx / 2)) /\
  s_rest ctx' = FINALIZED /\ sha3_final ctx' = Some (ctx', out).
Proof.
  intros (R & BM & Bb & Hb & Hr & Hh & Hc).
  destruct (rate_facts _ R) as [Hbs _]. set (bs := s_bs ctx) in *.
  assert (Hml : (length M mod bs < bs)%nat) by (apply Nat.mod_upper_bound; lia).
  assert (Hd : (100 - bs / 2 < bs)%nat) by lia.
  unfold sha3_final at 1. rewrite Hr, not_final by lia. cbn [N.eqb]. fold bs. rewrite Nat2N.id.
  set (q := (length M / bs)%nat) in *. set (r := (length M mod bs)%nat) in *.
  assert (HM : length M = (q * bs + r)%nat) by (unfold q, r; pose proof (Nat.div_mod (length M) bs); lia).
  destruct (pad_buffer bs r (s_msg ctx) Hml Hb ltac:(lia) Bb) as (b1 & b2 & b3 & E1 & E2 & E3 & B3 & F3).
  rewrite E1, E2, E3. replace (Nat.ltb (100 - bs / 2) bs) with true by lia. cbn [s_hash].
  set (hf := process_block (s_hash ctx) b3 bs).
  assert (Ehf : hf = absorbN bs (S q) (M ++ padb (bs - r)) h0).
  { unfold hf. rewrite absorbN_snoc, Hh.
    rewrite (absorbN_ext bs R q M (M ++ padb (bs - r)) h0).
    - apply process_prefix; auto. rewrite F3, Hc.
      rewrite skipn_app. replace (q * bs - length M)%nat with 0%nat by lia. cbn [skipn].
      symmetry. apply firstn_all2. rewrite app_length, skipn_length, padb_length. lia.
    - rewrite firstn_app. replace (q * bs - length M)%nat with 0%nat by lia. cbn [firstn]. rewrite app_nil_r. reflexivity. }
  assert (Hs : holds hf (absorb (8 * bs) (S q) (bits (M ++ padb (bs - r))) (fun _ => false))).
  { rewrite Ehf. apply absorbN_spec; [auto| |apply holds_0]. apply Forall_app. split; [auto|apply padb_bytes]. }
  assert (Hlen : length hf = 25%nat) by apply Hs.
  eexists. eexists. split; [reflexivity|]. split; [apply Forall_firstn, words_bytes|]. split; [|split; [|split]].
  - rewrite firstn_length_le; [reflexivity|]. rewrite words_length, Hlen. lia.
  - rewrite (digest_bits _ _ _ Hs) by lia. unfold sponge. rewrite pad_spec by lia. fold r.
    replace (length (bits (M ++ padb (bs - r))) / (8 * bs))%nat with (S q); [reflexivity|].
    rewrite bits_length, app_length, padb_length, HM.
    replace (8 * (q * bs + r + (bs - r)))%nat with (S q * (8 * bs))%nat by lia.
    rewrite Nat.div_mul by lia. reflexivity.
  - reflexivity.
  - unfold sha3_final. cbn [s_rest s_bs s_hash].
    change (N.land FINALIZED FINALIZED =? 0) with false. cbv iota.
    replace (Nat.ltb (100 - bs / 2) bs) with true by lia. reflexivity.
Qed.

Definition sha3_size (d : nat) : Prop := (d = 224 \/ d = 256 \/ d = 384 \/ d = 512)%nat.
Lemma size_rate d : sha3_size d -> s_bs (sha3_init d) = ((1600 - d * 2) / 8)%nat /\
  (8 * ((1600 - d * 2) / 8) = 1600 - 2 * d)%nat /\ (8 * (100 - (1600 - d * 2) / 8 / 2) = d)%nat /\
  sha3_hash_len d = Some (100 - (1600 - d * 2) / 8 / 2)%nat.
Proof. intros [-> | [-> | [-> | ->]]]; repeat split; reflexivity. Qed.

Lemma fed_updates : forall ps ctx M, fed ctx M -> Forall (fun p => fits (snd p)) ps ->
  exists ctx', sha3_updates ctx ps = Some ctx' /\ fed ctx' (M ++ concat (map snd ps)) /\ s_bs ctx' = s_bs ctx.
Proof.
  induction ps as [|[a m] ps IH]; intros ctx M H F.
  - exists ctx. cbn [map concat sha3_updates]. rewrite app_nil_r. auto.
  - inversion F as [|? ? F1 F2]; subst. cbn [sha3_updates map concat snd] in *.
    destruct (fed_update ctx M a m H F1) as (c1 & E1 & H1 & B1). rewrite E1.
    destruct (IH c1 _ H1 F2) as (c2 & E2 & H2 & B2). exists c2. rewrite E2, B2, B1, <- app_assoc in *. auto.
Qed.

(** C76.  For each of the four digest sizes, every message, every way of cutting it
    into pieces of at most 2^63 bytes and every place of the pieces in memory: no
    copy leaves the context's buffer, no assertion fails, and the digest is SHA3-d of
    the concatenation, as FIPS 202 defines it, with the length hash_len tells. *)
Theorem sha3_is_fips202 : forall d ps,
  sha3_size d -> Forall (fun p => bytes_ok (snd p) /\ N.of_nat (length (snd p)) <= 2 ^ 63) ps ->
  exists out, sha3_digest d ps = Some out /\ bytes_ok out /\
    sha3_hash_len d = Some (length out) /\ bits out = SHA3 d (bits (concat (map snd ps))).
Proof.
  intros d ps Hd F. destruct (size_rate d Hd) as (E1 & E2 & E3 & E4).
  destruct (fed_updates ps (sha3_init d) [] (fed_init d Hd) F) as (ctx & Eu & Hf & Eb).
  destruct (fed_final ctx _ Hf) as (ctx' & out & Ef & Bo & Lo & Bits & _).
  exists out. unfold sha3_digest. rewrite Eu, Ef. split; [reflexivity|]. split; [exact Bo|].
  rewrite Eb, E1 in Lo, Bits. rewrite Lo. split; [exact E4|]. rewrite Bits, E2, E3. reflexivity.
Qed.
Print Assumptions sha3_is_fips202.

(** What a program sees through mem_hash, whatever the alignment of its buffer. *)
Theorem mem_hash_sha3_is_fips202 : forall d addr buf,
  sha3_size d -> bytes_ok buf -> N.of_nat (length buf) <= 2 ^ 63 ->
  exists out, mem_hash_sha3 d addr buf = Some out /\ sha3_hash_len d = Some (length out) /\
    bits out = SHA3 d (bits buf).
Proof.
  intros d addr buf Hd B L. destruct (sha3_is_fips202 d [(addr, buf)] Hd) as (out & E & _ & Hl & Hb).
  { constructor; [split; auto|constructor]. }
  exists out. split; [exact E|]. split; [exact Hl|]. cbn [map concat snd] in Hb. rewrite app_nil_r in Hb. exact Hb.
Qed.
Print Assumptions mem_hash_sha3_is_fips202.

Lemma bits_inj : forall a b, bytes_ok a -> bytes_ok b -> bits a = bits b -> a = b.
Proof.
  intros a b Ha Hb E.
  assert (L : length a = length b).
  { apply (f_equal (@length bool)) in E. rewrite !bits_length in E. lia. }
  apply (nth_ext _ _ 0 0); auto. intros i Hi. apply N.bits_inj. intros n.
  destruct (N.lt_ge_cases n 8) as [Hn|Hn].
  - pose proof (f_equal (fun l => nth (8 * i + N.to_nat n) l false) E) as G. cbv beta in G.
    rewrite !nth_bits in G.
    replace ((8 * i + N.to_nat n) / 8)%nat with i in G by lia.
    replace (N.of_nat ((8 * i + N.to_nat n) mod 8)) with n in G by lia. exact G.
  - assert (S8 : forall x, x < 256 -> N.testbit x n = false).
    { intros x Hx. destruct (N.eq_dec x 0) as [->|Hz]; [apply N.bits_0|].
      apply N.bits_above_log2. apply N.log2_lt_pow2; [lia|].
      eapply N.lt_le_trans; [exact Hx|]. change 256 with (2 ^ 8). apply N.pow_le_mono_r; lia. }
    unfold bytes_ok in Ha, Hb. rewrite Forall_forall in Ha, Hb.
    rewrite !S8; [reflexivity| |]; [apply Hb|apply Ha]; apply nth_In; lia.
Qed.

(** C45 for SHA-3: two ways of cutting a message, at any addresses, give the same
    digest; in particular every way gives what hashing it at once gives. *)
Theorem sha3_any_pieces : forall d ps qs,
  sha3_size d ->
  Forall (fun p => bytes_ok (snd p) /\ N.of_nat (length (snd p)) <= 2 ^ 63) (ps ++ qs) ->
  concat (map snd ps) = concat (map snd qs) ->
  sha3_digest d ps = sha3_digest d qs /\ sha3_digest d ps <> None.
Proof.
  intros d ps qs Hd F E. apply Forall_app in F. destruct F as [Fp Fq].
  destruct (sha3_is_fips202 d ps Hd Fp) as (o1 & E1 & B1 & _ & H1).
  destruct (sha3_is_fips202 d qs Hd Fq) as (o2 & E2 & B2 & _ & H2).
  rewrite E1, E2. split; [|discriminate]. f_equal. apply bits_inj; auto. rewrite H1, H2, E. reflexivity.
Qed.
Print Assumptions sha3_any_pieces.

(** Once the digest is taken, feeding more changes nothing and taking it again gives
    the same digest. *)
Theorem sha3_after_final : forall d ps ctx ctx' out more ctx'',
  sha3_size d -> Forall (fun p => bytes_ok (snd p) /\ N.of_nat (length (snd p)) <= 2 ^ 63) ps ->
  sha3_updates (sha3_init d) ps = Some ctx -> sha3_final ctx = Some (ctx', out) ->
  sha3_updates ctx' more = Some ctx'' -> sha3_final ctx'' = Some (ctx', out).
Proof.
  intros d ps ctx ctx' out more ctx'' Hd F Eu Ef Em.
  destruct (fed_updates ps (sha3_init d) [] (fed_init d Hd) F) as (c & Eu' & Hf & _).
  rewrite Eu in Eu'. injection Eu' as <-.
  destruct (fed_final ctx _ Hf) as (c' & o & Ef' & _ & _ & _ & Hr & Hi).
  rewrite Ef in Ef'. injection Ef' as <- <-.
  assert (G : forall l, sha3_updates ctx' l = Some ctx').
  { induction l as [|[a m] l IH]; [reflexivity|]. cbn [sha3_updates]. unfold sha3_update. rewrite Hr.
    change (negb (N.land FINALIZED FINALIZED =? 0)) with true. cbv iota. exact IH. }
  rewrite G in Em. injection Em as <-. exact Hi.
Qed.
Print Assumptions sha3_after_final.

(** The published test vector SHA3-256("abc"), fed as "a" at an odd address and "bc". *)
Example sha3_abc : sha3_digest 256 [(3, [97]); (8, [98; 99])] = Some
  [0x3a;0x98;0x5d;0xa7;0x4f;0xe2;0x25;0xb2;0x04;0x5c;0x17;0x2d;0x6b;0xd3;0x90;0xbd;
   0x85;0x5f;0x08;0x6e;0x3e;0x9d;0x52;0x5b;0x46;0xbf;0xe2;0x45;0x11;0x43;0x15;0x32].
Proof. vm_compute. reflexivity. Qed.
(** The hypotheses hold for it and for a message longer than a block. *)
Example sha3_hyps : sha3_size 256 /\
  Forall (fun p => bytes_ok (snd p) /\ N.of_nat (length (snd p)) <= 2 ^ 63)
    [(3, repeat 97 200); (8, [98; 99])].
Proof.
  split; [right; left; reflexivity|].
  repeat constructor; cbn [snd fst]; try (vm_compute; congruence).
Qed.
