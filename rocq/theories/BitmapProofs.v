From Coq Require Import List NArith ZArith Bool Lia FinFun.
From Coq Require Import ZifyBool ZifyNat ZifyN.
From Verif Require Import BitmapModel BitmapSpec.
Import ListNotations.
Open Scope N_scope.

Ltac Zify.zify_post_hook ::= Z.div_mod_to_equations.

Definition bit (ws : list N) (i : N) : bool :=
  match nth_error ws (N.to_nat (i / 64)) with
  | Some w => N.testbit w (i mod 64)
  | None => false
  end.

Lemma set_nth_spec ws i w :
  (i < length ws)%nat ->
  exists ws', set_nth ws i w = Some ws' /\ length ws' = length ws /\
    forall j, nth_error ws' j = if Nat.eqb j i then Some w else nth_error ws j.
Proof.
  revert i. induction ws as [|x t IH]; intros i Hi; simpl in Hi; [lia|].
  destruct i as [|i]; simpl.
  - exists (w :: t). repeat split; auto. intros [|j]; reflexivity.
  - destruct (IH i) as (ws' & E & L & N); [lia|]. rewrite E. simpl.
    exists (x :: ws'). simpl. repeat split; auto. intros [|j]; simpl; auto.
Qed.

Lemma set_nth_none ws i w : (length ws <= i)%nat -> set_nth ws i w = None.
Proof.
  revert i. induction ws as [|x t IH]; intros i Hi; simpl in *; auto.
  destruct i; [lia|]. rewrite IH by lia. reflexivity.
Qed.

Lemma word_at_some ws i : i < N.of_nat (length ws) -> exists w, word_at ws i = Some w.
Proof.
  intros H. unfold word_at. destruct (nth_error ws (N.to_nat i)) eqn:E; eauto.
  apply nth_error_None in E. lia.
Qed.

Lemma word_at_in ws i w : word_at ws i = Some w -> In w ws.
Proof. unfold word_at. apply nth_error_In. Qed.

(** ** the scan for a zero bit *)

Lemma lnot_bit w i : i < 64 -> N.testbit (N.lnot w 64) i = negb (N.testbit w i).
Proof. intros. apply N.lnot_spec_low. auto. Qed.

Lemma lnot_bit_high w i : w < 2 ^ 64 -> 64 <= i -> N.testbit (N.lnot w 64) i = false.
Proof.
  intros Hw Hi. rewrite N.lnot_spec_high by auto.
  destruct (N.eq_dec w 0) as [->|Hz]; [apply N.bits_0|].
  apply N.bits_above_log2. apply N.log2_lt_pow2; [lia|].
  eapply N.lt_le_trans; [exact Hw|]. apply N.pow_le_mono_r; lia.
Qed.

Lemma scan_bit_spec fuel tmp pos :
  (exists q, pos <= q < pos + N.of_nat fuel /\ N.testbit tmp q = true) ->
  exists r, scan_bit fuel tmp pos = Some r /\ pos <= r < pos + N.of_nat fuel /\
    N.testbit tmp r = true /\ forall q, pos <= q < r -> N.testbit tmp q = false.
Proof.
  revert pos. induction fuel as [|f IH]; intros pos (q & Hq & Hb); [lia|].
  simpl. destruct (N.testbit tmp pos) eqn:E.
  - exists pos. repeat split; auto; lia.
  - destruct (IH (pos + 1)) as (r & Er & Hr & Hrb & Hrq).
    { exists q. split; auto. assert (q <> pos) by (intros ->; congruence). lia. }
    exists r. repeat split; auto; try lia.
    intros q' Hq'. destruct (N.eq_dec q' pos) as [->|]; auto. apply Hrq. lia.
Qed.

Definition words_ok (ws : list N) : Prop := forall w, In w ws -> w < 2 ^ 64.

Lemma bit_cons_low x t q : q < 64 -> bit (x :: t) q = N.testbit x q.
Proof.
  intros. unfold bit. rewrite N.div_small, N.mod_small by auto. reflexivity.
Qed.

Lemma bit_cons_high x t q : 64 <= q -> bit (x :: t) q = bit t (q - 64).
Proof.
  intros. unfold bit.
  replace (N.to_nat (q / 64)) with (S (N.to_nat ((q - 64) / 64))) by lia.
  simpl. replace ((q - 64) mod 64) with (q mod 64) by lia. reflexivity.
Qed.

Lemma scan_words_spec rest start nbits :
  words_ok rest -> rest <> [] ->
  start + N.of_nat (length rest) = div_round_up nbits 64 ->
  exists r, scan_words rest start nbits = Some r /\
    ((64 * start <= r < 64 * (start + N.of_nat (length rest)) /\
      bit rest (r - 64 * start) = false /\
      forall q, q < r - 64 * start -> bit rest q = true)
     \/ (r = nbits /\ forall q, q < 64 * N.of_nat (length rest) -> bit rest q = true)).
Proof.
  revert start. induction rest as [|w rest IH]; intros start Hok Hne Hlen; [congruence|].
  cbn [scan_words]. unfold bits_per_long.
  assert (Hw : w < 2 ^ 64) by (apply Hok; left; auto).
  destruct (N.lnot w 64 =? 0) eqn:E.
  - apply N.eqb_eq in E.
    assert (Hall : forall q, q < 64 -> N.testbit w q = true).
    { intros q Hq. pose proof (lnot_bit w q Hq) as H. rewrite E, N.bits_0 in H.
      destruct (N.testbit w q); auto. }
    destruct (div_round_up nbits 64 <=? start + 1) eqn:E2.
    + exists nbits. split; auto. right. split; auto.
      assert (rest = []) as -> by (destruct rest; auto; simpl in Hlen; lia).
      intros q Hq. simpl in Hq. rewrite bit_cons_low by lia. apply Hall; lia.
    + destruct (IH (start + 1)) as (r & Er & Hr).
      * intros x Hx. apply Hok. right; auto.
      * intros ->. simpl in Hlen. lia.
      * simpl length in Hlen. lia.
      * exists r. split; auto. simpl length.
        destruct Hr as [(Hr & Hb & Hq)|(Hr & Hq)].
        -- left. split; [lia|]. split.
           ++ rewrite bit_cons_high by lia. rewrite <- Hb. f_equal. lia.
           ++ intros q Hlt. destruct (N.lt_ge_cases q 64).
              ** rewrite bit_cons_low by auto. auto.
              ** rewrite bit_cons_high by auto. apply Hq. lia.
        -- right. split; auto. intros q Hlt. destruct (N.lt_ge_cases q 64).
           ** rewrite bit_cons_low by auto. auto.
           ** rewrite bit_cons_high by auto. apply Hq. lia.
  - apply N.eqb_neq in E.
    destruct (scan_bit_spec 64 (N.lnot w 64) 0) as (p & Ep & Hp & Hpb & Hpq).
    { destruct (N.lt_ge_cases (N.log2 (N.lnot w 64)) 64) as [H|H].
      - exists (N.log2 (N.lnot w 64)). split; [lia|]. apply N.bit_log2; auto.
      - exfalso. pose proof (N.bit_log2 _ E) as Hb.
        rewrite lnot_bit_high in Hb by auto. discriminate. }
    rewrite Ep. eexists. split; [reflexivity|]. left. simpl length.
    split; [lia|].
    replace (start * 64 + p - 64 * start) with p by lia. split.
    + rewrite bit_cons_low by lia. rewrite lnot_bit in Hpb by lia.
      destruct (N.testbit w p); auto.
    + intros q Hq. rewrite bit_cons_low by lia.
      specialize (Hpq q ltac:(lia)). rewrite lnot_bit in Hpq by lia.
      destruct (N.testbit w q); auto.
Qed.

(** ** setting and clearing bits *)

Lemma set_bit_word w p i : N.testbit (N.lor w (N.shiftl 1 p)) i = N.testbit w i || (i =? p).
Proof.
  rewrite N.lor_spec, N.shiftl_1_l, N.pow2_bits_eqb. f_equal. apply N.eqb_sym.
Qed.

Lemma clear_bit_word w p i : p < 64 -> w < 2 ^ 64 ->
  N.testbit (N.land w (N.lnot (N.shiftl 1 p) 64)) i = N.testbit w i && negb (i =? p).
Proof.
  intros Hp Hw. rewrite N.land_spec.
  destruct (N.lt_ge_cases i 64) as [H|H].
  - rewrite lnot_bit by auto. rewrite N.shiftl_1_l, N.pow2_bits_eqb.
    f_equal. f_equal. apply N.eqb_sym.
  - assert (N.testbit w i = false) as ->.
    { destruct (N.eq_dec w 0) as [->|Hz]; [apply N.bits_0|].
      apply N.bits_above_log2. apply N.log2_lt_pow2; [lia|].
      eapply N.lt_le_trans; [exact Hw|]. apply N.pow_le_mono_r; lia. }
    reflexivity.
Qed.

Lemma lt_pow2_bits w n : (forall i, n <= i -> N.testbit w i = false) -> w < 2 ^ n.
Proof.
  intros H. destruct (N.eq_dec w 0) as [->|Hz].
  - apply N.neq_0_lt_0. apply N.pow_nonzero. lia.
  - destruct (N.lt_ge_cases w (2 ^ n)) as [|Hge]; auto. exfalso.
    apply N.log2_le_pow2 in Hge; [|lia].
    pose proof (N.bit_log2 w Hz) as Hb. rewrite (H _ Hge) in Hb. discriminate.
Qed.

Lemma bits_lt_pow2 w n i : w < 2 ^ n -> n <= i -> N.testbit w i = false.
Proof.
  intros Hw Hi. destruct (N.eq_dec w 0) as [->|Hz]; [apply N.bits_0|].
  apply N.bits_above_log2. apply N.log2_lt_pow2; [lia|].
  eapply N.lt_le_trans; [exact Hw|]. apply N.pow_le_mono_r; lia.
Qed.

Lemma div_mod_eqb i j : (i / 64 =? j / 64) && (i mod 64 =? j mod 64) = (i =? j).
Proof. destruct (i =? j) eqn:E; lia. Qed.

Lemma bitmap_set_spec ws i :
  words_ok ws -> i < 64 * N.of_nat (length ws) ->
  exists ws', bitmap_set ws i = Some ws' /\ length ws' = length ws /\ words_ok ws' /\
    forall j, bit ws' j = bit ws j || (j =? i).
Proof.
  intros Hok Hi. unfold bitmap_set, bits_per_long.
  destruct (word_at_some ws (i / 64)) as (w & Ew); [lia|]. rewrite Ew.
  destruct (set_nth_spec ws (N.to_nat (i / 64)) (N.lor w (N.shiftl 1 (i mod 64))))
    as (ws' & E & L & Nth); [lia|].
  exists ws'. rewrite E. repeat split; auto.
  - intros x Hx. apply In_nth_error in Hx. destruct Hx as (n & Hn). rewrite Nth in Hn.
    destruct (Nat.eqb n (N.to_nat (i / 64))) eqn:En.
    + assert (x = N.lor w (N.shiftl 1 (i mod 64))) as -> by congruence.
      apply lt_pow2_bits. intros k Hk.
      rewrite set_bit_word. rewrite (bits_lt_pow2 w 64 k); auto; [|apply Hok; eapply word_at_in; eauto].
      simpl. apply N.eqb_neq. lia.
    + apply Hok. eapply nth_error_In; eauto.
  - intros j. unfold bit. rewrite Nth.
    destruct (Nat.eqb (N.to_nat (j / 64)) (N.to_nat (i / 64))) eqn:En.
    + rewrite set_bit_word. assert (j / 64 = i / 64) as Hd by lia.
      unfold word_at in Ew. rewrite Hd, Ew. f_equal.
      rewrite <- (div_mod_eqb j i). rewrite Hd, N.eqb_refl. reflexivity.
    + replace (j =? i) with false; [rewrite orb_false_r; reflexivity|].
      symmetry. apply N.eqb_neq. intros ->. rewrite Nat.eqb_refl in En. discriminate.
Qed.

Lemma bitmap_clear_spec ws i :
  words_ok ws -> i < 64 * N.of_nat (length ws) ->
  exists ws', bitmap_clear ws i = Some ws' /\ length ws' = length ws /\ words_ok ws' /\
    forall j, bit ws' j = bit ws j && negb (j =? i).
Proof.
  intros Hok Hi. unfold bitmap_clear, bits_per_long.
  destruct (word_at_some ws (i / 64)) as (w & Ew); [lia|]. rewrite Ew.
  assert (Hw : w < 2 ^ 64) by (apply Hok; eapply word_at_in; eauto).
  destruct (set_nth_spec ws (N.to_nat (i / 64))
              (N.land w (N.lnot (N.shiftl 1 (i mod 64)) 64)))
    as (ws' & E & L & Nth); [lia|].
  exists ws'. rewrite E. repeat split; auto.
  - intros x Hx. apply In_nth_error in Hx. destruct Hx as (n & Hn). rewrite Nth in Hn.
    destruct (Nat.eqb n (N.to_nat (i / 64))) eqn:En.
    + assert (x = N.land w (N.lnot (N.shiftl 1 (i mod 64)) 64)) as -> by congruence.
      apply lt_pow2_bits. intros k Hk.
      rewrite clear_bit_word by (auto; lia). rewrite (bits_lt_pow2 w 64 k); auto.
    + apply Hok. eapply nth_error_In; eauto.
  - intros j. unfold bit. rewrite Nth.
    destruct (Nat.eqb (N.to_nat (j / 64)) (N.to_nat (i / 64))) eqn:En.
    + rewrite clear_bit_word by (auto; lia). assert (j / 64 = i / 64) as Hd by lia.
      unfold word_at in Ew. rewrite Hd, Ew. f_equal. f_equal.
      rewrite <- (div_mod_eqb j i). rewrite Hd, N.eqb_refl. reflexivity.
    + replace (j =? i) with false; [rewrite andb_true_r; reflexivity|].
      symmetry. apply N.eqb_neq. intros ->. rewrite Nat.eqb_refl in En. discriminate.
Qed.

Lemma bitmap_clear_oob ws i :
  64 * N.of_nat (length ws) <= i -> bitmap_clear ws i = None.
Proof.
  intros Hi. unfold bitmap_clear, word_at, bits_per_long.
  assert (nth_error ws (N.to_nat (i / 64)) = None) as ->; auto.
  apply nth_error_None. lia.
Qed.

(** ** the invariant *)

Record binv (B : N) (O : Z) (b : bmp) : Prop := {
  inv_off : offset b = O;
  inv_size : size b = B;
  inv_len : N.of_nat (length (words b)) = div_round_up B 64;
  inv_ok : words_ok (words b);
  inv_high : forall j, B <= j -> bit (words b) j = false
}.

Lemma nwords_bounds B : 1 <= B ->
  B <= 64 * div_round_up B 64 /\ 64 * div_round_up B 64 < B + 64 /\ 1 <= div_round_up B 64.
Proof. intros. unfold div_round_up. lia. Qed.

Lemma bit_repeat0 n j : bit (repeat 0 n) j = false.
Proof.
  unfold bit. destruct (nth_error (repeat 0 n) (N.to_nat (j / 64))) eqn:E; auto.
  apply nth_error_In, repeat_spec in E. subst. apply N.bits_0.
Qed.

Lemma create_inv B O : binv B O (bmp_create B O).
Proof.
  split; unfold bmp_create; cbn [offset size words]; auto.
  - rewrite repeat_length. unfold bits_per_long. lia.
  - intros w Hw. apply repeat_spec in Hw. subst. reflexivity.
  - intros. apply bit_repeat0.
Qed.

Definition is_used_bit (O : Z) (b : bmp) (id : Z) : bool :=
  bit (words b) (Z.to_N (id - O)).

Lemma allocate_spec B O b : 1 <= B -> binv B O b ->
  exists b' id, bmp_allocate b = Some (b', id) /\ binv B O b' /\
    ((id = (O - 1)%Z /\ b' = b /\ forall i, in_pool B O i -> is_used_bit O b i = true)
     \/ (in_pool B O id /\ is_used_bit O b id = false /\
         forall i, in_pool B O i -> is_used_bit O b' i = is_used_bit O b i || (i =? id)%Z)).
Proof.
  intros HB [Hoff Hsz Hlen Hok Hhigh].
  destruct (nwords_bounds B HB) as (HB1 & HB2 & HB3).
  unfold bmp_allocate, find_next_zero_bit. rewrite Hsz.
  destruct (scan_words_spec (words b) 0 B) as (r & Er & Hr); auto.
  { intros E. rewrite E in Hlen. simpl in Hlen. lia. }
  rewrite Er. destruct (B <=? r) eqn:EB.
  - exists b, (bad_id b). split; [reflexivity|]. split; [split; auto|]. left.
    unfold bad_id. rewrite Hoff. repeat split; auto.
    intros i Hi. unfold in_pool in Hi. unfold is_used_bit.
    destruct Hr as [(_ & _ & Hq)|(_ & Hq)]; apply Hq; lia.
  - destruct Hr as [(Hr1 & Hr2 & Hr3)|(Hr1 & _)]; [|lia].
    rewrite N.mul_0_r, N.sub_0_r in *.
    destruct (bitmap_set_spec (words b) r Hok) as (ws' & Es & Ls & Oks & Bs); [lia|].
    rewrite Es. do 2 eexists. split; [reflexivity|]. split.
    + split; cbn [offset size words]; auto; try lia.
      intros j Hj. rewrite Bs, Hhigh by auto. simpl. apply N.eqb_neq. lia.
    + right. unfold in_pool, is_used_bit. rewrite Hoff. cbn [words].
      replace (Z.to_N (Z.of_N r + O - O)) with r by lia.
      split; [lia|]. split; [auto|].
      intros i Hi. rewrite Bs. f_equal.
      destruct (Z.to_N (i - O) =? r) eqn:E1; destruct (i =? Z.of_N r + O)%Z eqn:E2; auto; lia.
Qed.

Lemma release_spec B O b id : 1 <= B -> binv B O b -> in_pool B O id ->
  exists b', bmp_release b id = Some (b', 0%Z) /\ binv B O b' /\
    forall i, in_pool B O i -> is_used_bit O b' i = is_used_bit O b i && negb (i =? id)%Z.
Proof.
  intros HB [Hoff Hsz Hlen Hok Hhigh] Hid. unfold in_pool in *.
  destruct (nwords_bounds B HB) as (HB1 & HB2 & HB3).
  unfold bmp_release, is_id_valid. rewrite Hoff, Hsz.
  replace (id <? O)%Z with false by lia.
  replace (O + Z.of_N B <? id)%Z with false by lia. simpl.
  destruct (bitmap_clear_spec (words b) (Z.to_N (id - O)) Hok) as (ws' & Es & Ls & Oks & Bs); [lia|].
  rewrite Es. eexists. split; [reflexivity|]. split.
  - split; cbn [offset size words]; auto; try lia.
    intros j Hj. rewrite Bs, Hhigh by auto. reflexivity.
  - intros i Hi. unfold is_used_bit. cbn [words]. rewrite Bs. f_equal. f_equal.
    destruct (Z.to_N (i - O) =? Z.to_N (id - O)) eqn:E1; destruct (i =? id)%Z eqn:E2; auto; lia.
Qed.

Lemma is_used_spec B O b id : 1 <= B -> binv B O b -> in_pool B O id ->
  bmp_is_id_used b id = Some (is_used_bit O b id).
Proof.
  intros HB [Hoff Hsz Hlen Hok Hhigh] Hid. unfold in_pool in *.
  destruct (nwords_bounds B HB) as (HB1 & HB2 & HB3).
  unfold bmp_is_id_used, is_used_bit, bit, bits_per_long. rewrite Hoff.
  replace (id <? O)%Z with false by lia.
  destruct (word_at_some (words b) (Z.to_N (id - O) / 64)) as (w & Ew); [lia|].
  rewrite Ew. unfold word_at in Ew. rewrite Ew. f_equal.
  rewrite N.shiftl_1_l.
  destruct (N.testbit w (Z.to_N (id - O) mod 64)) eqn:E.
  - apply negb_true_iff, N.eqb_neq. intros H0.
    assert (N.testbit (N.land w (2 ^ (Z.to_N (id - O) mod 64))) (Z.to_N (id - O) mod 64) = true) as H1.
    { rewrite N.land_spec, E, N.pow2_bits_true. reflexivity. }
    rewrite H0, N.bits_0 in H1. discriminate.
  - apply negb_false_iff, N.eqb_eq. apply N.bits_inj. intros k.
    rewrite N.bits_0, N.land_spec, N.pow2_bits_eqb.
    destruct (N.eqb_spec (Z.to_N (id - O) mod 64) k) as [<-|]; [rewrite E; auto|].
    apply andb_false_r.
Qed.

(** Every reachable pool satisfies the invariant and its bits are exactly the
    ids the client holds. *)
Lemma reach_inv B O b used : 1 <= B -> reach B O b used ->
  binv B O b /\ NoDup used /\
  (forall id, In id used -> in_pool B O id) /\
  (forall id, in_pool B O id -> (is_used_bit O b id = true <-> In id used)).
Proof.
  intros HB H. induction H as [|b used b' id H IH E Hne|b used b' H IH E|b used b' id r H IH Hin E].
  - split; [apply create_inv|]. split; [constructor|]. split; [intros ? []|].
    intros id Hid. unfold is_used_bit, bmp_create. cbn [words]. rewrite bit_repeat0.
    split; [discriminate|intros []].
  - destruct IH as (Hinv & Hnd & Hrng & Hiff).
    destruct (allocate_spec B O b HB Hinv) as (b2 & id2 & E2 & Hinv2 & Hcase).
    rewrite E in E2. injection E2 as <- <-.
    destruct Hcase as [(-> & _)|(Hp & Hf & Hb)]; [congruence|].
    split; auto. split; [|split].
    + constructor; auto. intros Hin. apply Hiff in Hin; auto. congruence.
    + intros i [<-|Hi]; auto.
    + intros i Hi. rewrite Hb by auto. rewrite orb_true_iff, Hiff by auto. simpl.
      rewrite Z.eqb_eq. split; intros [|]; auto.
  - destruct IH as (Hinv & Hnd & Hrng & Hiff).
    destruct (allocate_spec B O b HB Hinv) as (b2 & id2 & E2 & Hinv2 & Hcase).
    rewrite E in E2. injection E2 as <- <-.
    destruct Hcase as [(_ & -> & _)|(Hp & _)]; [auto|]. unfold in_pool in Hp. lia.
  - destruct IH as (Hinv & Hnd & Hrng & Hiff).
    destruct (release_spec B O b id HB Hinv (Hrng _ Hin)) as (b2 & E2 & Hinv2 & Hb).
    rewrite E in E2. injection E2 as <- ->.
    split; auto. split; [|split].
    + clear - Hnd. induction Hnd as [|x l Hx Hnd IH]; simpl; [constructor|].
      destruct (Z.eq_dec id x); auto. constructor; auto.
      intros Hin. apply in_remove in Hin. tauto.
    + intros i Hi. apply in_remove in Hi. apply Hrng. tauto.
    + intros i Hi. rewrite Hb by auto. rewrite andb_true_iff, Hiff by auto.
      split.
      * intros [Hu Hne]. apply in_in_remove; auto. intros ->. rewrite Z.eqb_refl in Hne. discriminate.
      * intros Hu. apply in_remove in Hu. destruct Hu. split; auto. lia.
Qed.

(** ** statements used by BitmapProps *)

Lemma c01_alloc B O b used : 1 <= B -> reach B O b used ->
  exists b' id, bmp_allocate b = Some (b', id) /\
    ((id = (O - 1)%Z /\ (forall i, in_pool B O i -> In i used)) \/
     (in_pool B O id /\ ~ In id used)).
Proof.
  intros HB H. destruct (reach_inv B O b used HB H) as (Hinv & Hnd & Hrng & Hiff).
  destruct (allocate_spec B O b HB Hinv) as (b2 & id2 & E2 & Hinv2 & Hcase).
  exists b2, id2. split; auto. destruct Hcase as [(-> & _ & Ha)|(Hp & Hf & _)].
  - left. split; auto. intros i Hi. apply Hiff; auto.
  - right. split; auto. intros Hin. apply Hiff in Hin; auto. congruence.
Qed.

Lemma c01_used B O b used id : 1 <= B -> reach B O b used -> in_pool B O id ->
  exists r, bmp_is_id_used b id = Some r /\ (r = true <-> In id used).
Proof.
  intros HB H Hid. destruct (reach_inv B O b used HB H) as (Hinv & Hnd & Hrng & Hiff).
  eexists. split; [eapply is_used_spec; eauto|]. apply Hiff; auto.
Qed.

Lemma c01_release B O b used id : 1 <= B -> reach B O b used -> In id used ->
  exists b', bmp_release b id = Some (b', 0%Z).
Proof.
  intros HB H Hid. destruct (reach_inv B O b used HB H) as (Hinv & Hnd & Hrng & Hiff).
  destruct (release_spec B O b id HB Hinv (Hrng _ Hid)) as (b2 & E2 & _). eauto.
Qed.

Lemma c01_capacity B O b used : 1 <= B -> reach B O b used ->
  NoDup used /\ (N.of_nat (length used) <= B) /\
  (bmp_allocate b = Some (b, (O - 1)%Z) <-> N.of_nat (length used) = B).
Proof.
  intros HB H. destruct (reach_inv B O b used HB H) as (Hinv & Hnd & Hrng & Hiff).
  set (pool := map (fun n => (O + Z.of_nat n)%Z) (seq 0 (N.to_nat B))).
  assert (Hpool : forall i, In i pool <-> in_pool B O i).
  { intros i. unfold pool, in_pool. rewrite in_map_iff. split.
    - intros (n & <- & Hn). apply in_seq in Hn. lia.
    - intros Hi. exists (Z.to_nat (i - O)). split; [lia|]. apply in_seq. lia. }
  assert (Hplen : length pool = N.to_nat B) by (unfold pool; rewrite map_length, seq_length; auto).
  assert (Hle : (length used <= length pool)%nat).
  { apply NoDup_incl_length; auto. intros i Hi. apply Hpool, Hrng, Hi. }
  assert (Hpnd : NoDup pool).
  { unfold pool. apply FinFun.Injective_map_NoDup; [|apply seq_NoDup]. intros x y; lia. }
  split; auto. split; [lia|].
  destruct (allocate_spec B O b HB Hinv) as (b2 & id2 & E2 & Hinv2 & Hcase).
  split.
  - intros E. rewrite E in E2. injection E2 as <- <-.
    destruct Hcase as [(_ & _ & Ha)|(Hp & _)]; [|unfold in_pool in Hp; lia].
    assert ((length pool <= length used)%nat); [|lia].
    apply NoDup_incl_length; auto. intros i Hi. apply Hpool in Hi. apply Hiff; auto.
  - intros Hl. destruct Hcase as [(-> & -> & _)|(Hp & Hf & _)]; auto. exfalso.
    assert (incl pool used) as Hincl.
    { apply NoDup_length_incl; auto; [lia|]. intros i Hi. apply Hpool, Hrng, Hi. }
    apply Hpool in Hp. apply Hincl in Hp. apply Hiff in Hp; [congruence|].
    apply Hrng; auto.
Qed.

(** After release the id can be used again: the pool has a free id. *)
Lemma c01_reuse B O b used id b' r : 1 <= B -> reach B O b used -> In id used ->
  bmp_release b id = Some (b', r) ->
  r = 0%Z /\
  bmp_is_id_used b' id = Some false /\
  (forall i, in_pool B O i -> i <> id -> bmp_is_id_used b' i = bmp_is_id_used b i) /\
  exists b'' id', bmp_allocate b' = Some (b'', id') /\ id' <> (O - 1)%Z.
Proof.
  intros HB H Hid E. destruct (reach_inv B O b used HB H) as (Hinv & Hnd & Hrng & Hiff).
  destruct (release_spec B O b id HB Hinv (Hrng _ Hid)) as (b2 & E2 & Hinv2 & Hb).
  rewrite E in E2. injection E2 as <- ->.
  split; auto. split; [|split].
  - rewrite (is_used_spec B O b' id HB Hinv2 (Hrng _ Hid)). rewrite Hb by auto.
    rewrite Z.eqb_refl. rewrite andb_false_r. reflexivity.
  - intros i Hi Hne. rewrite (is_used_spec B O b' i HB Hinv2 Hi).
    rewrite (is_used_spec B O b i HB Hinv Hi). rewrite Hb by auto.
    replace (i =? id)%Z with false by lia. rewrite andb_true_r. reflexivity.
  - destruct (allocate_spec B O b' HB Hinv2) as (b3 & id3 & E3 & _ & Hcase).
    exists b3, id3. split; auto. intros ->.
    destruct Hcase as [(_ & _ & Ha)|(Hp & _)]; [|unfold in_pool in Hp; lia].
    specialize (Ha id (Hrng _ Hid)). rewrite Hb in Ha by auto.
    rewrite Z.eqb_refl, andb_false_r in Ha. discriminate.
Qed.

(** ** the range guard (C02) *)

Lemma c02_guard B O b used id : 1 <= B -> reach B O b used ->
  (id < O \/ O + Z.of_N B < id)%Z ->
  bmp_is_id_valid b id = false /\ bmp_release b id = Some (b, (-1)%Z).
Proof.
  intros HB H Hid. destruct (reach_inv B O b used HB H) as ([Hoff Hsz _ _ _] & _).
  unfold bmp_is_id_valid, bmp_release, is_id_valid. rewrite Hoff, Hsz.
  assert (((id <? O) || (O + Z.of_N B <? id))%Z = true) as -> by lia. auto.
Qed.

Lemma c02_valid B O b used id : 1 <= B -> reach B O b used -> in_pool B O id ->
  bmp_is_id_valid b id = true.
Proof.
  intros HB H Hid. destruct (reach_inv B O b used HB H) as ([Hoff Hsz _ _ _] & _).
  unfold bmp_is_id_valid, is_id_valid, in_pool in *. rewrite Hoff, Hsz. lia.
Qed.

(** The code accepts O+B as well, and for sizes that are a multiple of the
    word size the release then accesses memory behind the array. *)
Lemma c02_boundary B O b used : 1 <= B -> reach B O b used ->
  bmp_is_id_valid b (O + Z.of_N B) = true /\
  (B mod 64 = 0 -> bmp_release b (O + Z.of_N B) = None) /\
  (B mod 64 <> 0 -> exists b', bmp_release b (O + Z.of_N B) = Some (b', 0%Z)).
Proof.
  intros HB H. destruct (reach_inv B O b used HB H) as ([Hoff Hsz Hlen Hok Hh] & _).
  destruct (nwords_bounds B HB) as (HB1 & HB2 & HB3).
  unfold bmp_is_id_valid, bmp_release, is_id_valid. rewrite Hoff, Hsz.
  assert (((O + Z.of_N B <? O) || (O + Z.of_N B <? O + Z.of_N B))%Z = false) as -> by lia.
  simpl. split; auto. split.
  - intros Hm. rewrite bitmap_clear_oob; auto.
    assert (64 * div_round_up B 64 = B) by (unfold div_round_up in *; lia). lia.
  - intros Hm.
    destruct (bitmap_clear_spec (words b) (Z.to_N (O + Z.of_N B - O)) Hok) as (ws' & Es & _).
    { assert (B < 64 * div_round_up B 64) by (unfold div_round_up in *; lia). lia. }
    rewrite Es. eauto.
Qed.
