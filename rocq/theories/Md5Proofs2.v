(** MD5 of messages in pieces, and the padding. *)
From Coq Require Import List Arith NArith Bool Lia ZifyBool ZifyNat ZifyN.
From Verif Require Import Bytes Sha3Proofs2 Md5Model Md5Spec Md5Proofs.
Import ListNotations.
Open Scope N_scope.

(** Blocks. *)
Lemma blocks_S n M r : blocks (S n) M r = blocks n (skipn 64 M) (compress r (firstn 64 M)).
Proof. reflexivity. Qed.
Lemma blocks_ext : forall n M M' r, firstn (64 * n) M = firstn (64 * n) M' -> blocks n M r = blocks n M' r.
Proof.
  induction n as [|n IH]; intros M M' r E; [reflexivity|]. rewrite !blocks_S.
  assert (E1 : firstn 64 M = firstn 64 M').
  { apply (f_equal (firstn 64)) in E. rewrite !firstn_firstn in E.
    replace (Nat.min 64 (64 * S n)) with 64%nat in E by lia. exact E. }
  rewrite E1. apply IH. apply (f_equal (skipn 64)) in E. rewrite !skipn_firstn_comm in E.
  replace (64 * S n - 64)%nat with (64 * n)%nat in E by lia. exact E.
Qed.
Lemma blocks_add : forall n m M r, blocks (n + m) M r = blocks m (skipn (64 * n) M) (blocks n M r).
Proof.
  induction n as [|n IH]; intros m M r.
  - reflexivity.
  - change (S n + m)%nat with (S (n + m)). rewrite !blocks_S, IH, skipn_skipn.
    replace (64 * n + 64)%nat with (64 * S n)%nat by lia. reflexivity.
Qed.

(** Copies. *)
Lemma up4_ge n : (n <= up4 n)%nat.
Proof. unfold up4. lia. Qed.
Lemma up4_pad n : up4 n = (n + (4 - n mod 4) mod 4)%nat.
Proof. unfold up4. lia. Qed.
Lemma get0 mem n : get mem 0 n = if Nat.leb n (length mem) then Some (firstn n mem) else None.
Proof. unfold get. cbn [Nat.add skipn]. reflexivity. Qed.
Lemma copy_ok to i from n : (i + up4 n <= length to)%nat -> (up4 n <= length from)%nat ->
  exists b, le32_copy to i from n = Some b /\ length b = length to /\
    firstn (i + n) b = firstn i to ++ firstn n from /\ (bytes_ok to -> bytes_ok from -> bytes_ok b).
Proof.
  intros H1 H2. pose proof (up4_ge n) as Hn. unfold le32_copy. rewrite get0.
  replace (Nat.leb (up4 n) (length from)) with true by lia.
  rewrite put_ok by (rewrite firstn_length_le; lia). rewrite firstn_length_le by lia.
  eexists. split; [reflexivity|]. split; [|split].
  - rewrite !app_length, !firstn_length_le, skipn_length by lia. lia.
  - rewrite firstn_app, firstn_length_le by lia. rewrite firstn_all2 by (rewrite firstn_length_le; lia).
    f_equal. replace (i + n - i)%nat with n by lia. rewrite firstn_app, firstn_firstn.
    rewrite firstn_length_le by lia. replace (n - up4 n)%nat with 0%nat by lia. cbn [firstn].
    rewrite app_nil_r. f_equal. lia.
  - intros B1 B2. apply Forall_app. split; [apply Forall_firstn; auto|]. apply Forall_app.
    split; [apply Forall_firstn; auto|apply Forall_skipn; auto].
Qed.
Lemma copy_none to i from n : (length to < i + up4 n \/ length from < up4 n)%nat -> le32_copy to i from n = None.
Proof.
  intros Hc. unfold le32_copy. rewrite get0. destruct (Nat.leb_spec (up4 n) (length from)) as [L|L]; [|reflexivity].
  unfold put. rewrite firstn_length_le by lia. replace (Nat.leb (i + up4 n) (length to)) with false by lia. reflexivity.
Qed.

(** The loop over blocks: it reads past the message exactly when its length is not a
    multiple of four and the object is too short. *)
Definition pad4 (n : nat) : nat := ((4 - n mod 4) mod 4)%nat.
Lemma pad4_64 n : (64 <= n)%nat -> pad4 (n - 64) = pad4 n.
Proof. intros Hn. unfold pad4. replace (n mod 4)%nat with ((n - 64) mod 4)%nat by lia. reflexivity. Qed.
Lemma md5_blocks_ok : forall fuel h buf mem size, (size < fuel)%nat -> (size + pad4 size <= length mem)%nat ->
  bytes_ok mem -> bytes_ok buf -> length buf = 64%nat -> wf4 h ->
  exists h' buf', md5_blocks fuel h buf mem size = Some (h', buf') /\ wf4 h' /\
    tup h' 0 = blocks (size / 64) mem (tup h 0) /\ bytes_ok buf' /\ length buf' = 64%nat /\
    firstn (size mod 64) buf' = firstn (size mod 64) (skipn (64 * (size / 64)) mem).
Proof.
  induction fuel as [|fuel IH]; intros h buf mem size Hf Hs B Bb Hb Hw; [lia|].
  cbn [md5_blocks]. destruct (Nat.leb_spec 64 size) as [L|L].
  - destruct (copy_ok buf 0 mem 64) as (b & E & Lb & Fb & Bok);
      [rewrite Hb; vm_compute; lia|change (up4 64) with 64%nat; lia|].
    rewrite E. change (0 + 64)%nat with 64%nat in Fb. change (firstn 0 buf ++ firstn 64 mem) with (firstn 64 mem) in Fb. rewrite firstn_all2 in Fb by lia. subst b.
    assert (Hd : (size / 64 = S ((size - 64) / 64))%nat) by lia.
    assert (Hm : (size mod 64 = (size - 64) mod 64)%nat) by lia.
    destruct (IH (md5_process h (firstn 64 mem)) (firstn 64 mem) (skipn 64 mem) (size - 64)%nat)
      as (h' & buf' & E' & W' & T' & B' & L' & F'); auto.
    + lia.
    + rewrite skipn_length, pad4_64 by auto. lia.
    + apply Forall_skipn; auto.
    + rewrite Lb. auto.
    + apply process_wf.
    + exists h', buf'. split; [exact E'|]. split; [exact W'|]. split; [|split; [exact B'|split; [exact L'|]]].
      * rewrite Hd, blocks_S, T', process_ok by auto. reflexivity.
      * rewrite Hm, F', Hd, skipn_skipn. do 2 f_equal. lia.
  - rewrite Nat.div_small, Nat.mod_small by auto. destruct (Nat.eqb_spec size 0) as [Z|Z].
    + subst. exists h, buf. cbn [firstn]. auto 7.
    + destruct (copy_ok buf 0 mem size) as (b & E & Lb & Fb & Bok).
      * rewrite Hb. unfold up4. lia.
      * rewrite up4_pad. exact Hs.
      * rewrite E. exists h, b. split; [reflexivity|]. split; [exact Hw|]. split; [reflexivity|].
        split; [auto|]. split; [lia|]. cbn [Nat.add firstn app] in Fb. rewrite Nat.mul_0_r. exact Fb.
Qed.
Lemma md5_blocks_none : forall fuel h buf mem size, (size < fuel)%nat -> (size <= length mem)%nat ->
  (length mem < size + pad4 size)%nat -> length buf = 64%nat -> md5_blocks fuel h buf mem size = None.
Proof.
  induction fuel as [|fuel IH]; intros h buf mem size Hf Hl Hs Hb; [lia|].
  cbn [md5_blocks]. destruct (Nat.leb_spec 64 size) as [L|L].
  - destruct (le32_copy buf 0 mem 64) as [b|] eqn:E; [|reflexivity].
    destruct (copy_ok buf 0 mem 64) as (b' & E' & Lb & _);
      [rewrite Hb; vm_compute; lia|change (up4 64) with 64%nat; lia|].
    rewrite E in E'. injection E' as <-. apply IH.
    + lia.
    + rewrite skipn_length. lia.
    + rewrite skipn_length, pad4_64 by auto. lia.
    + lia.
  - destruct (Nat.eqb_spec size 0) as [Z|Z]; [subst; unfold pad4 in Hs; cbn in Hs; lia|].
    rewrite copy_none; [reflexivity|]. right. rewrite up4_pad. exact Hs.
Qed.

(** Contexts between calls: what has been fed so far is [M]. *)
Definition iv : regs := (0x67452301, 0xefcdab89, 0x98badcfe, 0x10325476).
Definition fed (ctx : md5_ctx) (M : list N) : Prop :=
  bytes_ok M /\ bytes_ok (m_msg ctx) /\ length (m_msg ctx) = 64%nat /\ wf4 (m_hash ctx) /\
  m_len ctx = N.of_nat (length M) mod 2 ^ 64 /\
  tup (m_hash ctx) 0 = blocks (length M / 64) M iv /\
  firstn (length M mod 64) (m_msg ctx) = skipn (64 * (length M / 64)) M.

Lemma len_64 n : N.to_nat (N.land (N.of_nat n mod 2 ^ 64) 63) = (n mod 64)%nat.
Proof.
  change 63 with (N.ones 6). rewrite N.land_ones. change (2 ^ 6) with 64.
  assert (E : (N.of_nat n mod 2 ^ 64) mod 64 = N.of_nat n mod 64).
  { rewrite <- !(N.land_ones _ 6), <- (N.land_ones _ 64). rewrite <- N.land_assoc. reflexivity. }
  rewrite E. change 64 with (N.of_nat 64). rewrite <- Nat2N.inj_mod, Nat2N.id. reflexivity.
Qed.
Lemma fed_init junk : bytes_ok junk -> length junk = 64%nat -> fed (md5_init junk) [].
Proof.
  intros B L. unfold fed, md5_init. cbn [m_msg m_len m_hash length].
  repeat split; auto; try constructor; try reflexivity.
  repeat constructor; reflexivity.
Qed.

(** When a call stays inside the objects: the word that holds the last byte has to be
    readable, and the words written must not pass the end of the buffer. *)
Definition safe_call (fed_before size slack : nat) : Prop :=
  (pad4 size <= slack /\
   (fed_before mod 64 = 0 \/
    fed_before mod 64 + up4 (Nat.min size (64 - fed_before mod 64)) <= 64))%nat.

Ltac qlia := repeat match goal with
  | H : context [blocks] |- _ => clear H
  | H : bytes_ok _ |- _ => clear H
  | H : wf4 _ |- _ => clear H
  | H : _ = _ :> list N |- _ => clear H
  | H : _ = _ :> N |- _ => clear H
  end; lia.

Lemma fed_update ctx M m slack : fed ctx M -> bytes_ok m -> bytes_ok slack ->
  safe_call (length M) (length m) (length slack) ->
  exists ctx', md5_update ctx m slack = Some ctx' /\ fed ctx' (M ++ m).
Proof.
  intros (BM & Bb & Hb & Hw & Hlen & Hh & Hc) Bm Bs [S1 S2].
  unfold md5_update. rewrite Hlen, len_64. set (r := (length M mod 64)%nat) in *. set (q := (length M / 64)%nat) in *.
  assert (Hr : (r < 64)%nat) by (apply Nat.mod_upper_bound; lia).
  assert (HM : length M = (64 * q + r)%nat) by (unfold q, r; apply Nat.div_mod; lia).
  assert (Hlen2 : (N.of_nat (length M) mod 2 ^ 64 + N.of_nat (length m)) mod 2 ^ 64
                  = N.of_nat (length (M ++ m)) mod 2 ^ 64).
  { rewrite N.add_mod_idemp_l by discriminate. rewrite app_length, Nat2N.inj_add. reflexivity. }
  rewrite Hlen2. clearbody r q.
  assert (BMm : bytes_ok (M ++ m)) by (apply Forall_app; auto).
  assert (Bmem : bytes_ok (m ++ slack)) by (apply Forall_app; auto).
  assert (Lmem : length (m ++ slack) = (length m + length slack)%nat) by apply app_length.
  destruct (Nat.eqb_spec r 0) as [E0|E0].
  - destruct (md5_blocks_ok (S (length m)) (m_hash ctx) (m_msg ctx) (m ++ slack) (length m))
      as (h' & buf' & E & W' & T' & B' & L' & F'); auto; [rewrite Lmem; qlia|].
    rewrite E. eexists. split; [reflexivity|]. unfold fed. cbn [m_msg m_len m_hash].
    assert (Hq : (length (M ++ m) / 64 = q + length m / 64)%nat).
    { rewrite app_length, HM, E0. replace (64 * q + 0 + length m)%nat with (length m + q * 64)%nat by qlia.
      rewrite Nat.div_add by qlia. qlia. }
    assert (Hm : (length (M ++ m) mod 64 = length m mod 64)%nat).
    { rewrite app_length, HM, E0. replace (64 * q + 0 + length m)%nat with (length m + q * 64)%nat by qlia.
      apply Nat.mod_add. qlia. }
    assert (Hsk : skipn (64 * q) (M ++ m) = m).
    { replace (64 * q)%nat with (length M) by qlia. rewrite skipn_app, skipn_all, Nat.sub_diag. reflexivity. }
    assert (Hle : (64 * (length m / 64) + length m mod 64 = length m)%nat) by (symmetry; apply Nat.div_mod; qlia).
    split; [exact BMm|]. split; [exact B'|]. split; [exact L'|]. split; [exact W'|]. split; [reflexivity|].
    split.
    + rewrite Hq, blocks_add, Hsk, T', Hh.
      rewrite (blocks_ext q (M ++ m) M).
      * apply blocks_ext. rewrite firstn_app. replace (64 * (length m / 64) - length m)%nat with 0%nat by qlia.
        cbn [firstn]. apply app_nil_r.
      * rewrite firstn_app. replace (64 * q - length M)%nat with 0%nat by qlia. cbn [firstn]. apply app_nil_r.
    + rewrite Hm, Hq, F'. rewrite Nat.mul_add_distr_l, (Nat.add_comm (64 * q)), <- skipn_skipn, Hsk.
      rewrite skipn_app. replace (64 * (length m / 64) - length m)%nat with 0%nat by qlia. cbn [skipn].
      rewrite firstn_app, skipn_length. replace (length m mod 64 - (length m - 64 * (length m / 64)))%nat with 0%nat by qlia.
      cbn [firstn]. rewrite app_nil_r. apply firstn_all2. rewrite skipn_length. qlia.
  - destruct S2 as [S2|S2]; [contradiction|].
    set (n := if Nat.ltb (length m) (64 - r) then length m else (64 - r)%nat).
    assert (Hn : n = Nat.min (length m) (64 - r)) by (unfold n; destruct (Nat.ltb_spec (length m) (64 - r)); qlia).
    clearbody n. rewrite <- Hn in S2.
    assert (Hsk : skipn (64 * q) (M ++ m) = skipn (64 * q) M ++ m).
    { rewrite skipn_app. replace (64 * q - length M)%nat with 0%nat by qlia. reflexivity. }
    assert (Hbl : blocks q M iv = blocks q (M ++ m) iv).
    { apply blocks_ext. rewrite firstn_app. replace (64 * q - length M)%nat with 0%nat by qlia.
      cbn [firstn]. rewrite app_nil_r. reflexivity. }
    assert (Hup : (up4 n <= length (m ++ slack))%nat).
    { rewrite Lmem. destruct (Nat.le_gt_cases (64 - r) (length m)) as [L|L].
      - assert (n = (64 - r)%nat) by qlia. unfold up4 in *. qlia.
      - assert (n = length m) by qlia. subst n. rewrite H, up4_pad. unfold pad4 in S1. qlia. }
    destruct (copy_ok (m_msg ctx) r (m ++ slack) n) as (b & E & Lb & Fb & Bok); [qlia|exact Hup|].
    specialize (Bok Bb Bmem). rewrite E.
    assert (Hpre : firstn (r + n) b = skipn (64 * q) M ++ firstn n m).
    { rewrite Fb, Hc. f_equal. rewrite firstn_app. replace (n - length m)%nat with 0%nat by qlia.
      cbn [firstn]. apply app_nil_r. }
    destruct (Nat.ltb_spec (length m) (64 - r)) as [L|L].
    + eexists. split; [reflexivity|]. unfold fed. cbn [m_msg m_len m_hash].
      assert (En : n = length m) by qlia.
      assert (Hq : (length (M ++ m) / 64 = q)%nat).
      { rewrite app_length, HM. replace (64 * q + r + length m)%nat with (r + length m + q * 64)%nat by qlia.
        rewrite Nat.div_add, Nat.div_small by qlia. qlia. }
      assert (Hm : (length (M ++ m) mod 64 = r + n)%nat).
      { rewrite app_length, HM. replace (64 * q + r + length m)%nat with (r + length m + q * 64)%nat by qlia.
        rewrite Nat.mod_add, Nat.mod_small by qlia. qlia. }
      split; [exact BMm|]. split; [exact Bok|]. split; [rewrite Lb; exact Hb|]. split; [exact Hw|]. split; [reflexivity|].
      rewrite Hq. split.
      * rewrite Hh. exact Hbl.
      * rewrite Hm, Hpre, Hsk. f_equal. apply firstn_all2. qlia.
    + assert (En : n = (64 - r)%nat) by qlia. subst n. rewrite En in *. clear En.
      assert (Hr4 : (r mod 4 = 0)%nat) by (unfold up4 in S2; qlia).
      set (m' := skipn (64 - r) m).
      assert (Lm' : length m = (64 - r + length m')%nat) by (unfold m'; rewrite skipn_length; qlia).
      assert (Hmem : skipn (64 - r) (m ++ slack) = m' ++ slack).
      { rewrite skipn_app. replace (64 - r - length m)%nat with 0%nat by qlia. reflexivity. }
      rewrite Hmem. replace (length m - (64 - r))%nat with (length m') by qlia.
      assert (Hp : pad4 (length m') = pad4 (length m)).
      { unfold pad4. replace (length m' mod 4)%nat with (length m mod 4)%nat; [reflexivity|].
        rewrite Lm'. clear - Hr4 Hr. lia. }
      assert (Bm' : bytes_ok (m' ++ slack)) by (apply Forall_app; split; auto; apply Forall_skipn; auto).
      replace (r + (64 - r))%nat with 64%nat in Hpre by qlia.
      rewrite firstn_all2 in Hpre by qlia.
      destruct (md5_blocks_ok (S (length m')) (md5_process (m_hash ctx) b) b (m' ++ slack) (length m'))
        as (h' & buf' & E' & W' & T' & B' & L' & F'); auto.
      { rewrite app_length. qlia. }
      { rewrite Lb. auto. }
      { apply process_wf. }
      rewrite E'. eexists. split; [reflexivity|]. unfold fed. cbn [m_msg m_len m_hash].
      assert (Hq : (length (M ++ m) / 64 = S q + length m' / 64)%nat).
      { rewrite app_length, HM, Lm'.
        replace (64 * q + r + (64 - r + length m'))%nat with (length m' + S q * 64)%nat by qlia.
        rewrite Nat.div_add by qlia. qlia. }
      assert (Hm : (length (M ++ m) mod 64 = length m' mod 64)%nat).
      { rewrite app_length, HM, Lm'.
        replace (64 * q + r + (64 - r + length m'))%nat with (length m' + S q * 64)%nat by qlia.
        apply Nat.mod_add. qlia. }
      assert (Hsk2 : skipn (64 * S q) (M ++ m) = m').
      { replace (64 * S q)%nat with (length M + (64 - r))%nat by qlia.
        rewrite skipn_app. rewrite skipn_all2 by qlia. cbn [app]. unfold m'. f_equal. qlia. }
      assert (Hle : (64 * (length m' / 64) + length m' mod 64 = length m')%nat) by (symmetry; apply Nat.div_mod; qlia).
      split; [exact BMm|]. split; [exact B'|]. split; [exact L'|]. split; [exact W'|]. split; [reflexivity|].
      split.
      * rewrite Hq, blocks_add, Hsk2, T'.
        replace (blocks (S q) (M ++ m) iv) with (tup (md5_process (m_hash ctx) b) 0).
        { apply blocks_ext. rewrite firstn_app. replace (64 * (length m' / 64) - length m')%nat with 0%nat by qlia.
          cbn [firstn]. apply app_nil_r. }
        rewrite process_ok by auto. replace (S q) with (q + 1)%nat by qlia. rewrite blocks_add, <- Hbl, <- Hh, Hsk.
        rewrite blocks_S. cbn [blocks]. f_equal. rewrite Hpre.
        rewrite firstn_app. rewrite (firstn_all2 (skipn (64 * q) M)) by (rewrite skipn_length; qlia).
        f_equal. f_equal. rewrite skipn_length. qlia.
      * rewrite Hm, Hq, F'. rewrite Nat.mul_add_distr_l, (Nat.add_comm (64 * S q)), <- skipn_skipn, Hsk2.
        rewrite skipn_app. replace (64 * (length m' / 64) - length m')%nat with 0%nat by qlia. cbn [skipn].
        rewrite firstn_app, skipn_length. replace (length m' mod 64 - (length m' - 64 * (length m' / 64)))%nat with 0%nat by qlia.
        cbn [firstn]. rewrite app_nil_r. apply firstn_all2. rewrite skipn_length. qlia.
Qed.
