(** Byte strings in memory: little-endian fields, and reads and writes at an
    offset, which are [None] when they leave the buffer.  Shared by the models
    of the packet headers. *)
From Coq Require Import List Arith NArith Lia ZifyNat ZifyN.
Import ListNotations.
Open Scope N_scope.

Definition is_byte (b : N) : Prop := b < 256.
Definition bytes_ok (l : list N) : Prop := Forall is_byte l.

(** The first [n] bytes in memory of an unsigned integer on a little-endian
    machine: what memcpy from the integer copies. *)
Fixpoint le (n : nat) (v : N) : list N :=
  match n with O => [] | S k => v mod 256 :: le k (v / 256) end.
(** The value of a zeroed integer after memcpy of the bytes into it. *)
Fixpoint unle (l : list N) : N :=
  match l with [] => 0 | b :: t => b + 256 * unle t end.

(** Network byte order (htons/htonl/htobe64). *)
Definition be (n : nat) (v : N) : list N := rev (le n v).
Definition unbe (l : list N) : N := unle (rev l).

Definition get (buf : list N) (off n : nat) : option (list N) :=
  if Nat.leb (off + n) (length buf) then Some (firstn n (skipn off buf)) else None.
Definition put (buf : list N) (off : nat) (bs : list N) : option (list N) :=
  if Nat.leb (off + length bs) (length buf)
  then Some (firstn off buf ++ bs ++ skipn (off + length bs) buf) else None.

Lemma le_length : forall n v, length (le n v) = n.
Proof. induction n; intros; cbn [le length]; auto. Qed.
Lemma le_ok : forall n v, bytes_ok (le n v).
Proof.
  induction n; intros; cbn [le]; constructor.
  - unfold is_byte. apply N.mod_lt. discriminate.
  - apply IHn.
Qed.
Lemma pow256_S : forall n, 256 ^ N.of_nat (S n) = 256 * 256 ^ N.of_nat n.
Proof. intros. rewrite Nat2N.inj_succ, N.pow_succ_r'. reflexivity. Qed.
Lemma unle_le : forall n v, v < 256 ^ N.of_nat n -> unle (le n v) = v.
Proof.
  induction n; intros v H.
  - cbn [le unle]. change (256 ^ N.of_nat 0) with 1 in H. lia.
  - cbn [le unle]. rewrite pow256_S in H. rewrite IHn.
    + pose proof (N.div_mod v 256). lia.
    + apply N.div_lt_upper_bound; lia.
Qed.
Lemma unle_le_mod : forall n v, unle (le n v) = v mod 256 ^ N.of_nat n.
Proof.
  induction n; intros v.
  - cbn [le unle]. change (256 ^ N.of_nat 0) with 1. rewrite N.mod_1_r. reflexivity.
  - cbn [le unle]. rewrite IHn, pow256_S.
    rewrite N.mod_mul_r; try lia.
Qed.
Lemma unle_bound : forall l, bytes_ok l -> unle l < 256 ^ N.of_nat (length l).
Proof.
  induction 1; cbn [unle length].
  - reflexivity.
  - unfold is_byte in H. rewrite pow256_S. lia.
Qed.
Lemma le_unle : forall l, bytes_ok l -> le (length l) (unle l) = l.
Proof.
  induction 1; cbn [unle length le]; auto. unfold is_byte in H. f_equal.
  - rewrite (N.mul_comm 256), N.mod_add, N.mod_small; lia.
  - rewrite (N.mul_comm 256), N.div_add, N.div_small, N.add_0_l; auto; lia.
Qed.
Lemma unbe_be : forall n v, v < 256 ^ N.of_nat n -> unbe (be n v) = v.
Proof. intros. unfold unbe, be. rewrite rev_involutive. apply unle_le; auto. Qed.
Lemma be_length : forall n v, length (be n v) = n.
Proof. intros. unfold be. rewrite rev_length. apply le_length. Qed.

(** Reads and writes inside a concatenation. *)
Lemma get_app : forall a b c n, length b = n -> get (a ++ b ++ c) (length a) n = Some b.
Proof.
  intros a b c n <-. unfold get. rewrite !app_length.
  replace (Nat.leb _ _) with true by (symmetry; apply Nat.leb_le; lia).
  rewrite skipn_app, skipn_all, Nat.sub_diag. cbn [app skipn].
  rewrite firstn_app, firstn_all, Nat.sub_diag. cbn [firstn]. rewrite app_nil_r. reflexivity.
Qed.
Lemma put_app : forall a b b' c, length b = length b' ->
  put (a ++ b ++ c) (length a) b' = Some (a ++ b' ++ c).
Proof.
  intros a b b' c E. unfold put. rewrite !app_length.
  replace (Nat.leb _ _) with true by (symmetry; apply Nat.leb_le; lia).
  rewrite firstn_app, firstn_all, Nat.sub_diag. cbn [firstn]. rewrite app_nil_r.
  rewrite <- E. rewrite skipn_app.
  rewrite skipn_all2 by lia. cbn [app].
  replace (length a + length b - length a)%nat with (length b) by lia.
  rewrite skipn_app, skipn_all, Nat.sub_diag. reflexivity.
Qed.
Lemma split3 : forall (buf : list N) off n, (off + n <= length buf)%nat ->
  exists a b c, buf = a ++ b ++ c /\ length a = off /\ length b = n.
Proof.
  intros buf off n H. exists (firstn off buf), (firstn n (skipn off buf)), (skipn n (skipn off buf)).
  rewrite !firstn_skipn. split; [reflexivity|]. rewrite !firstn_length, skipn_length. lia.
Qed.
Lemma get_some : forall buf off n b, get buf off n = Some b ->
  exists a c, buf = a ++ b ++ c /\ length a = off /\ length b = n.
Proof.
  intros buf off n b H. unfold get in H. destruct (Nat.leb _ _) eqn:E; [|discriminate].
  apply Nat.leb_le in E. injection H as <-.
  exists (firstn off buf), (skipn n (skipn off buf)).
  rewrite !firstn_skipn. split; [reflexivity|]. rewrite !firstn_length, skipn_length. lia.
Qed.
Lemma put_some : forall buf off b' buf', put buf off b' = Some buf' ->
  exists a b c, buf = a ++ b ++ c /\ length a = off /\ length b = length b' /\
                buf' = a ++ b' ++ c.
Proof.
  intros buf off b' buf' H. unfold put in H. destruct (Nat.leb _ _) eqn:E; [|discriminate].
  apply Nat.leb_le in E.
  destruct (split3 buf off (length b') E) as (a & b & c & -> & Ha & Hb).
  exists a, b, c. injection H as <-. subst off.
  pose proof (put_app a b b' c Hb) as P. unfold put in P.
  rewrite (proj2 (Nat.leb_le _ _) E) in P. injection P as P. rewrite P. auto.
Qed.
