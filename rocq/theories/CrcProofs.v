(** Proofs about CRC-32. *)
From Coq Require Import List Arith NArith Bool Lia ZifyNat ZifyN ZifyBool.
From Verif Require Import Bytes CrcModel CrcSpec.
Import ListNotations.
Open Scope N_scope.

Definition P : N := 0xedb88320.
Definition step (c : N) : N := N.lxor (N.div2 c) (if N.odd c then P else 0).
Definition steps (n : nat) (c : N) : N := Nat.iter n step c.

Lemma odd_lxor a b : N.odd (N.lxor a b) = xorb (N.odd a) (N.odd b).
Proof. rewrite <- !N.bit0_odd. apply N.lxor_spec. Qed.
Lemma div2_lxor a b : N.div2 (N.lxor a b) = N.lxor (N.div2 a) (N.div2 b).
Proof. rewrite !N.div2_spec. apply N.shiftr_lxor. Qed.

Ltac xor_solve := 
  apply N.bits_inj; intro; rewrite ?N.lxor_spec, ?N.bits_0;
  repeat match goal with |- context [N.testbit ?a ?b] => destruct (N.testbit a b) end; reflexivity.

Lemma lxor_4 a b c d : N.lxor (N.lxor a b) (N.lxor c d) = N.lxor (N.lxor a c) (N.lxor b d).
Proof. xor_solve. Qed.

Lemma step_lin a b : step (N.lxor a b) = N.lxor (step a) (step b).
Proof.
  unfold step. rewrite odd_lxor, div2_lxor, lxor_4. f_equal.
  destruct (N.odd a), (N.odd b); cbn [xorb]; rewrite ?N.lxor_nilpotent, ?N.lxor_0_l, ?N.lxor_0_r; reflexivity.
Qed.
Lemma steps_S n c : steps (S n) c = step (steps n c).
Proof. reflexivity. Qed.
Lemma steps_lin n : forall a b, steps n (N.lxor a b) = N.lxor (steps n a) (steps n b).
Proof.
  induction n; intros; [reflexivity|]. rewrite !steps_S, IHn. apply step_lin.
Qed.
Lemma steps_add n m c : steps (n + m) c = steps n (steps m c).
Proof. induction n; [reflexivity|]. cbn [Nat.add]. rewrite !steps_S, IHn. reflexivity. Qed.

Lemma step_even a : step (2 * a) = a.
Proof.
  unfold step. rewrite N.div2_double. replace (N.odd (2 * a)) with false.
  - apply N.lxor_0_r.
  - symmetry. rewrite N.odd_mul. reflexivity.
Qed.
Lemma steps_shift n : forall a, steps n (N.shiftl a (N.of_nat n)) = a.
Proof.
  induction n; intros a; [apply N.shiftl_0_r|].
  rewrite Nat2N.inj_succ, N.shiftl_succ_r.
  replace (S n) with (n + 1)%nat by lia. rewrite steps_add.
  rewrite N.double_spec.
  change (steps 1 (2 * N.shiftl a (N.of_nat n))) with (step (2 * N.shiftl a (N.of_nat n))).
  rewrite step_even. apply IHn.
Qed.
Lemma steps_shift_lt n k a : (k <= n)%nat -> steps n (N.shiftl a (N.of_nat k)) = steps (n - k) a.
Proof.
  intros H. replace n with ((n - k) + k)%nat at 1 by lia. rewrite steps_add, steps_shift. reflexivity.
Qed.
Lemma steps_0 n : steps n 0 = 0.
Proof. induction n; [reflexivity|]. rewrite steps_S, IHn. reflexivity. Qed.

Lemma table_ok : forallb (fun i => N.eqb (nth i crc32_table 0) (steps 8 (N.of_nat i))) (seq 0 256) = true.
Proof. vm_compute. reflexivity. Qed.

Lemma table_steps x : x < 256 -> nth (N.to_nat x) crc32_table 0 = steps 8 x.
Proof.
  intros H. pose proof table_ok as T. rewrite forallb_forall in T.
  specialize (T (N.to_nat x)). rewrite N2Nat.id in T.
  apply N.eqb_eq, T. apply in_seq. lia.
Qed.

Lemma land255 x : N.land x 0xff = x mod 256.
Proof. change 0xff with (N.ones 8). rewrite N.land_ones. reflexivity. Qed.

Lemma split_low x : x = N.lxor (x mod 256) (N.shiftl (N.shiftr x 8) 8).
Proof.
  apply N.bits_inj. intro i. rewrite N.lxor_spec.
  change 256 with (2 ^ 8). destruct (N.lt_ge_cases i 8).
  - rewrite N.mod_pow2_bits_low, N.shiftl_spec_low by assumption. destruct (N.testbit x i); reflexivity.
  - rewrite N.mod_pow2_bits_high, N.shiftl_spec_high', N.shiftr_spec' by assumption.
    replace (i - 8 + 8) with i by lia. destruct (N.testbit x i); reflexivity.
Qed.

Lemma byte_shiftr b : b < 256 -> N.shiftr b 8 = 0.
Proof. intros. rewrite N.shiftr_div_pow2. apply N.div_small. exact H. Qed.

Lemma crc32_byte_steps c b : b < 256 -> crc32_byte c b = steps 8 (N.lxor c b).
Proof.
  intros H. unfold crc32_byte. rewrite land255, table_steps by (apply N.mod_lt; discriminate).
  rewrite (split_low (N.lxor c b)) at 2. rewrite steps_lin. f_equal.
  change 8 with (N.of_nat 8) at 2. rewrite steps_shift.
  change (N.of_nat 8) with 8. rewrite N.shiftr_lxor, (byte_shiftr b H), N.lxor_0_r. reflexivity.
Qed.

(** The register after a byte string: the bits of the string, shifted through. *)
Definition feed (c : N) (bs : list N) : N := fold_left crc32_byte bs c.

Lemma byte_shl a b : b < 256 -> b + 256 * a = N.lxor b (N.shiftl a 8).
Proof.
  intros H. pose proof (split_low (b + 256 * a)) as E.
  rewrite (N.mul_comm 256) in *. rewrite N.mod_add, N.mod_small in E by lia.
  rewrite N.shiftr_div_pow2 in E. change (2 ^ 8) with 256 in E.
  rewrite N.div_add, N.div_small, N.add_0_l in E by lia. exact E.
Qed.

Lemma feed_steps : forall bs c, bytes_ok bs ->
  feed c bs = steps (8 * length bs) (N.lxor c (unle bs)).
Proof.
  induction bs as [|b bs IH]; intros c H.
  - cbn [feed fold_left length unle Nat.mul]. rewrite N.lxor_0_r. reflexivity.
  - inversion H as [|? ? Hb Hbs]; subst. unfold is_byte in Hb.
    unfold feed in *. cbn [fold_left]. rewrite IH by assumption. rewrite crc32_byte_steps by assumption.
    cbn [length unle]. replace (8 * S (length bs))%nat with (8 * length bs + 8)%nat by lia.
    rewrite steps_add. f_equal. rewrite byte_shl by assumption.
    rewrite !steps_lin. rewrite (steps_shift 8 (unle bs) : steps 8 (N.shiftl (unle bs) 8) = unle bs).
    rewrite N.lxor_assoc. reflexivity.
Qed.

(** Bounds. *)
Lemma lt_pow2_lxor a b n : a < 2 ^ n -> b < 2 ^ n -> N.lxor a b < 2 ^ n.
Proof.
  intros Ha Hb. destruct (N.eq_dec (N.lxor a b) 0) as [->|Nz].
  - apply N.neq_0_lt_0, N.pow_nonzero. discriminate.
  - apply N.log2_lt_pow2; [lia|].
    pose proof (N.log2_lxor a b).
    destruct (N.eq_dec a 0) as [->|]; destruct (N.eq_dec b 0) as [->|].
    + rewrite N.lxor_0_l in Nz. congruence.
    + rewrite N.lxor_0_l in *. apply N.log2_lt_pow2; lia.
    + rewrite N.lxor_0_r in *. apply N.log2_lt_pow2; lia.
    + assert (N.log2 a < n) by (apply N.log2_lt_pow2; lia).
      assert (N.log2 b < n) by (apply N.log2_lt_pow2; lia). lia.
Qed.

Lemma div2_bound c n : c < 2 ^ N.succ n -> N.div2 c < 2 ^ n.
Proof.
  intros H. rewrite N.div2_div. apply N.div_lt_upper_bound; [discriminate|].
  rewrite <- N.pow_succ_r'. exact H.
Qed.

Lemma step_bound c : c < 2 ^ 32 -> step c < 2 ^ 32.
Proof.
  intros H. unfold step. apply lt_pow2_lxor.
  - pose proof (div2_bound c 31 H). eapply N.lt_trans; [eassumption|reflexivity].
  - destruct (N.odd c); reflexivity.
Qed.
Lemma steps_bound n c : c < 2 ^ 32 -> steps n c < 2 ^ 32.
Proof. intros H. induction n; [exact H|]. rewrite steps_S. apply step_bound. exact IHn. Qed.

Lemma byte_bound b : b < 256 -> b < 2 ^ 32.
Proof. intros. eapply N.lt_trans; [eassumption|reflexivity]. Qed.

Lemma feed_bound : forall bs c, bytes_ok bs -> c < 2 ^ 32 -> feed c bs < 2 ^ 32.
Proof.
  induction bs as [|b bs IH]; intros c H Hc; [exact Hc|].
  inversion H as [|? ? Hb Hbs]; subst. unfold feed in *. cbn [fold_left]. apply IH; [assumption|].
  rewrite crc32_byte_steps by assumption. apply steps_bound. apply lt_pow2_lxor; [assumption|].
  apply byte_bound. exact Hb.
Qed.

(** Reflection. *)
Lemma reflect_lin n : forall a b, reflect n (N.lxor a b) = N.lxor (reflect n a) (reflect n b).
Proof.
  induction n; intros; [reflexivity|]. cbn [reflect].
  rewrite div2_lxor, IHn, odd_lxor, lxor_4. f_equal.
  destruct (N.odd a), (N.odd b); cbn [xorb]; rewrite ?N.lxor_nilpotent, ?N.lxor_0_l, ?N.lxor_0_r; reflexivity.
Qed.
Lemma shiftl_lxor1 a b k : N.shiftl (N.lxor a b) k = N.lxor (N.shiftl a k) (N.shiftl b k).
Proof. apply N.shiftl_lxor. Qed.

Lemma reflect_small n : forall a, a < 2 ^ N.of_nat n -> reflect (S n) a = N.shiftl (reflect n a) 1.
Proof.
  induction n; intros a H.
  - change (2 ^ N.of_nat 0) with 1 in H. assert (a = 0) as -> by lia. reflexivity.
  - change (reflect (S (S n)) a) with (N.lxor (if N.odd a then 2 ^ N.of_nat (S n) else 0) (reflect (S n) (N.div2 a))).
    change (reflect (S n) a) with (N.lxor (if N.odd a then 2 ^ N.of_nat n else 0) (reflect n (N.div2 a))).
    rewrite IHn.
    + rewrite N.shiftl_lxor. f_equal. destruct (N.odd a); [|reflexivity].
      rewrite N.shiftl_mul_pow2. rewrite Nat2N.inj_succ, N.pow_succ_r', N.pow_1_r. lia.
    + apply div2_bound. rewrite Nat2N.inj_succ in H. exact H.
Qed.

Definition Grefl : reflect 32 P = N.lxor G (2 ^ 32) := eq_refl.

Lemma reflect_step c : c < 2 ^ 32 ->
  reflect 32 (step c) = N.lxor (N.shiftl (reflect 32 c) 1) (if N.odd c then G else 0).
Proof.
  intros H. unfold step. rewrite reflect_lin.
  rewrite (reflect_small 31 (N.div2 c)) by (apply (div2_bound c 31); exact H).
  change (reflect 32 c) with (N.lxor (if N.odd c then 2 ^ 31 else 0) (reflect 31 (N.div2 c))).
  rewrite N.shiftl_lxor. destruct (N.odd c).
  - rewrite Grefl. change (N.shiftl (2 ^ 31) 1) with (2 ^ 32).
    generalize (N.shiftl (reflect 31 (N.div2 c)) 1) G (2 ^ 32). intros. xor_solve.
  - change (reflect 32 0) with 0. rewrite N.shiftl_0_l, N.lxor_0_l. reflexivity.
Qed.

(** Multiples. *)
Lemma multiple_add a b : multiple a -> multiple b -> multiple (N.lxor a b).
Proof.
  intros Ha Hb. induction Hb as [|b k Hb IH].
  - rewrite N.lxor_0_r. exact Ha.
  - rewrite <- N.lxor_assoc. apply mult_add. exact IH.
Qed.
Lemma multiple_shift a k : multiple a -> multiple (N.shiftl a k).
Proof.
  induction 1 as [|a j Ha IH].
  - rewrite N.shiftl_0_l. constructor.
  - rewrite N.shiftl_lxor, N.shiftl_shiftl. apply mult_add. exact IH.
Qed.
Lemma cong_refl a : congruent a a.
Proof. unfold congruent. rewrite N.lxor_nilpotent. constructor. Qed.
Lemma cong_sym a b : congruent a b -> congruent b a.
Proof. unfold congruent. rewrite N.lxor_comm. auto. Qed.
Lemma cong_trans a b c : congruent a b -> congruent b c -> congruent a c.
Proof.
  unfold congruent. intros H1 H2. replace (N.lxor a c) with (N.lxor (N.lxor a b) (N.lxor b c)).
  - apply multiple_add; assumption.
  - xor_solve.
Qed.
Lemma cong_shift a b k : congruent a b -> congruent (N.shiftl a k) (N.shiftl b k).
Proof. unfold congruent. intros H. rewrite <- N.shiftl_lxor. apply multiple_shift. exact H. Qed.
Lemma cong_add a b c d : congruent a b -> congruent c d -> congruent (N.lxor a c) (N.lxor b d).
Proof. unfold congruent. intros H1 H2. rewrite lxor_4. apply multiple_add; assumption. Qed.

Lemma cong_step c : c < 2 ^ 32 -> congruent (reflect 32 (step c)) (N.shiftl (reflect 32 c) 1).
Proof.
  intros H. rewrite reflect_step by assumption.
  unfold congruent. destruct (N.odd c).
  - replace (N.lxor _ _) with (N.lxor 0 (N.shiftl G 0)).
    + apply mult_add. constructor.
    + rewrite N.shiftl_0_r. generalize (N.shiftl (reflect 32 c) 1) G. intros. xor_solve.
  - rewrite N.lxor_0_r, N.lxor_nilpotent. constructor.
Qed.
Lemma cong_steps n : forall c, c < 2 ^ 32 ->
  congruent (reflect 32 (steps n c)) (N.shiftl (reflect 32 c) (N.of_nat n)).
Proof.
  induction n; intros c H.
  - rewrite N.shiftl_0_r. apply cong_refl.
  - rewrite steps_S. eapply cong_trans; [apply cong_step, steps_bound, H|].
    replace (N.of_nat (S n)) with (N.of_nat n + 1) by lia.
    rewrite <- N.shiftl_shiftl. apply cong_shift. apply IHn. exact H.
Qed.

Lemma reflect_byte b : b < 256 -> reflect 32 b = N.shiftl (reflect 8 b) 24.
Proof.
  intros H.
  assert (E : forallb (fun i => N.eqb (reflect 32 (N.of_nat i)) (N.shiftl (reflect 8 (N.of_nat i)) 24)) (seq 0 256) = true)
    by (vm_compute; reflexivity).
  rewrite forallb_forall in E. specialize (E (N.to_nat b)). rewrite N2Nat.id in E.
  apply N.eqb_eq, E. apply in_seq. lia.
Qed.

Lemma feed_cong : forall bs m c n, bytes_ok bs -> c < 2 ^ 32 ->
  congruent (reflect 32 c) (N.lxor (N.shiftl m 32) (N.shiftl ones32 (8 * N.of_nat n))) ->
  congruent (reflect 32 (feed c bs))
    (N.lxor (N.shiftl (fold_left (fun m b => N.lxor (N.shiftl m 8) (reflect 8 b)) bs m) 32)
            (N.shiftl ones32 (8 * N.of_nat (n + length bs)))).
Proof.
  induction bs as [|b bs IH]; intros m c n H Hc C.
  - cbn [fold_left length feed]. rewrite Nat.add_0_r. exact C.
  - inversion H as [|? ? Hb Hbs]; subst. unfold is_byte in Hb.
    unfold feed. cbn [fold_left length]. rewrite crc32_byte_steps by assumption.
    replace (n + S (length bs))%nat with (S n + length bs)%nat by lia.
    apply IH; [assumption| |].
    + apply steps_bound, lt_pow2_lxor; [assumption|]. apply byte_bound, Hb.
    + eapply cong_trans; [apply cong_steps, lt_pow2_lxor; [assumption|apply byte_bound, Hb]|].
      rewrite reflect_lin, (reflect_byte b Hb). change (N.of_nat 8) with 8.
      rewrite (N.shiftl_lxor (reflect 32 c)).
      eapply cong_trans; [apply cong_add; [apply cong_shift, C|apply cong_refl]|].
      match goal with |- congruent ?a ?b => assert (a = b) as ->; [|apply cong_refl] end.
      rewrite !N.shiftl_lxor, !N.shiftl_shiftl.
      replace (8 * N.of_nat n + 8) with (8 * N.of_nat (S n)) by lia.
      change (24 + 8) with 32. replace (32 + 8) with (8 + 32) by lia.
      generalize (N.shiftl m (8 + 32)) (N.shiftl ones32 (8 * N.of_nat (S n))) (N.shiftl (reflect 8 b) 32).
      intros. xor_solve.
Qed.

Lemma crc32_spec bs : bytes_ok bs -> is_crc32 bs (crc32 0 bs).
Proof.
  intros H. unfold is_crc32, crc32. rewrite N.lxor_0_l. fold (feed ones32 bs).
  assert (B : feed ones32 bs < 2 ^ 32) by (apply feed_bound; [assumption|reflexivity]).
  split; [apply lt_pow2_lxor; [assumption|reflexivity]|].
  rewrite N.lxor_assoc. change (N.lxor ones32 0xffffffff) with 0. rewrite N.lxor_0_r.
  pose proof (feed_cong bs 0 ones32 0 H eq_refl) as C. cbn [Nat.add] in C.
  apply C. vm_compute (reflect 32 ones32). change (8 * N.of_nat 0) with 0.
  rewrite N.shiftl_0_l, N.shiftl_0_r, N.lxor_0_l. apply cong_refl.
Qed.

(** The remainder is unique. *)
Fixpoint prem (p : positive) : N :=
  let fix1 s := if N.testbit s 32 then N.lxor s G else s in
  match p with
  | xH => 1
  | xO q => fix1 (N.shiftl (prem q) 1)
  | xI q => fix1 (N.lxor (N.shiftl (prem q) 1) 1)
  end.
Definition rem (a : N) : N := match a with 0 => 0 | Npos p => prem p end.
Definition red (s : N) : N := if N.testbit s 32 then N.lxor s G else s.

Lemma rem_rec a (b : bool) : rem (2 * a + N.b2n b) = red (N.lxor (N.shiftl (rem a) 1) (N.b2n b)).
Proof.
  destruct a as [|p], b; cbn [N.b2n]; rewrite ?N.add_0_r, ?N.lxor_0_r; reflexivity.
Qed.
Lemma red_lin a b : red (N.lxor a b) = N.lxor (red a) (red b).
Proof.
  unfold red. rewrite N.lxor_spec. destruct (N.testbit a 32), (N.testbit b 32); cbn [xorb];
  generalize G; intros; xor_solve.
Qed.
Lemma bin_lxor a b (x y : bool) :
  N.lxor (2 * a + N.b2n x) (2 * b + N.b2n y) = 2 * N.lxor a b + N.b2n (xorb x y).
Proof.
  apply N.bits_inj. intro i. rewrite N.lxor_spec.
  destruct (N.eq_dec i 0) as [->|Ni].
  - rewrite !N.testbit_0_r. reflexivity.
  - replace i with (N.succ (N.pred i)) by lia. rewrite !N.testbit_succ_r. symmetry. apply N.lxor_spec.
Qed.
Lemma N_bin a : exists a' b, a = 2 * a' + N.b2n b.
Proof. exists (N.div2 a), (N.odd a). rewrite <- N.div2_odd. reflexivity. Qed.

Lemma rem_lin : forall n a b, a < 2 ^ N.of_nat n -> b < 2 ^ N.of_nat n ->
  rem (N.lxor a b) = N.lxor (rem a) (rem b).
Proof.
  induction n; intros a b Ha Hb.
  - change (2 ^ N.of_nat 0) with 1 in *. assert (a = 0) as -> by lia. assert (b = 0) as -> by lia. reflexivity.
  - destruct (N_bin a) as (a' & x & ->), (N_bin b) as (b' & y & ->).
    rewrite bin_lxor, !rem_rec, <- red_lin.
    rewrite Nat2N.inj_succ, N.pow_succ_r' in Ha, Hb.
    rewrite IHn by lia. rewrite N.shiftl_lxor, lxor_4. do 2 f_equal. destruct x, y; reflexivity.
Qed.
Lemma rem_lxor a b : rem (N.lxor a b) = N.lxor (rem a) (rem b).
Proof.
  apply rem_lin with (n := N.to_nat (N.max (N.size a) (N.size b))); rewrite N2Nat.id;
  (eapply N.lt_le_trans; [apply N.size_gt|]; apply N.pow_le_mono_r; lia).
Qed.
Lemma rem_G k : rem (N.shiftl G k) = 0.
Proof.
  induction k using N.peano_ind.
  - vm_compute. reflexivity.
  - rewrite N.shiftl_succ_r. rewrite N.double_spec.
    replace (2 * N.shiftl G k) with (2 * N.shiftl G k + N.b2n false) by (cbn [N.b2n]; lia).
    rewrite rem_rec, IHk. reflexivity.
Qed.
Lemma rem_multiple a : multiple a -> rem a = 0.
Proof.
  induction 1 as [|a k H IH]; [reflexivity|]. rewrite rem_lxor, IH, rem_G. reflexivity.
Qed.
Lemma testbit_small s n : s < 2 ^ n -> N.testbit s n = false.
Proof.
  intros H. destruct (N.eq_dec s 0) as [->|]; [apply N.bits_0|].
  apply N.bits_above_log2. apply N.log2_lt_pow2; lia.
Qed.
Lemma rem_small : forall n, (n <= 32)%nat -> forall a, a < 2 ^ N.of_nat n -> rem a = a.
Proof.
  induction n; intros Hn a Ha.
  - change (2 ^ N.of_nat 0) with 1 in Ha. assert (a = 0) as -> by lia. reflexivity.
  - destruct (N_bin a) as (a' & x & ->). rewrite rem_rec.
    rewrite Nat2N.inj_succ, N.pow_succ_r' in Ha.
    rewrite IHn by lia.
    assert (E : N.lxor (N.shiftl a' 1) (N.b2n x) = 2 * a' + N.b2n x).
    { apply N.bits_inj. intro i. rewrite N.lxor_spec. destruct (N.eq_dec i 0) as [->|Ni].
      - rewrite N.testbit_0_r, N.shiftl_spec_low by lia. destruct x; reflexivity.
      - replace i with (N.succ (N.pred i)) by lia. rewrite N.testbit_succ_r.
        rewrite N.shiftl_spec_high' by lia. replace (N.succ (N.pred i) - 1) with (N.pred i) by lia.
        replace (N.testbit (N.b2n x) (N.succ (N.pred i))) with false; [apply xorb_false_r|].
        destruct x; [|rewrite N.bits_0; reflexivity]. symmetry. apply N.bits_above_log2. cbn. lia. }
    rewrite E. unfold red. rewrite testbit_small; [reflexivity|].
    eapply N.lt_le_trans with (2 ^ N.of_nat (S n)).
    + rewrite Nat2N.inj_succ, N.pow_succ_r'. exact Ha.
    + apply N.pow_le_mono_r; lia.
Qed.

Lemma reflect_bound n : forall a, reflect n a < 2 ^ N.of_nat n.
Proof.
  induction n; intros; [reflexivity|]. cbn [reflect]. apply lt_pow2_lxor.
  - destruct (N.odd a); [apply N.pow_lt_mono_r; lia|]. apply N.neq_0_lt_0, N.pow_nonzero. discriminate.
  - eapply N.lt_le_trans; [apply IHn|]. apply N.pow_le_mono_r; lia.
Qed.
Lemma reflect_zero n : forall a, a < 2 ^ N.of_nat n -> reflect n a = 0 -> a = 0.
Proof.
  induction n; intros a Ha E.
  - change (2 ^ N.of_nat 0) with 1 in Ha. lia.
  - cbn [reflect] in E. destruct (N.odd a) eqn:O.
    + exfalso. assert (N.testbit 0 (N.of_nat n) = true); [|rewrite N.bits_0 in *; discriminate].
      rewrite <- E, N.lxor_spec, N.pow2_bits_true, (testbit_small _ _ (reflect_bound n (N.div2 a))). reflexivity.
    + rewrite N.lxor_0_l in E. apply IHn in E.
      * rewrite (N.div2_odd a), E, O. reflexivity.
      * apply div2_bound. rewrite <- Nat2N.inj_succ. exact Ha.
Qed.

Lemma lxor_eq_0 a b : N.lxor a b = 0 -> a = b.
Proof. apply N.lxor_eq. Qed.

Lemma crc32_unique bs c1 c2 : is_crc32 bs c1 -> is_crc32 bs c2 -> c1 = c2.
Proof.
  intros [B1 C1] [B2 C2].
  assert (C : congruent (reflect 32 (N.lxor c1 0xffffffff)) (reflect 32 (N.lxor c2 0xffffffff))).
  { eapply cong_trans; [exact C1|]. apply cong_sym. exact C2. }
  unfold congruent in C. rewrite <- reflect_lin in C. apply rem_multiple in C.
  rewrite (rem_small 32) in C; [|lia|apply (reflect_bound 32)].
  apply reflect_zero in C.
  - apply lxor_eq_0. replace (N.lxor c1 c2) with (N.lxor (N.lxor c1 4294967295) (N.lxor c2 4294967295)); [exact C|].
    generalize 4294967295. intros. xor_solve.
  - change (N.of_nat 32) with 32. repeat apply lt_pow2_lxor; auto; reflexivity.
Qed.

(** Flipping bits. *)
Lemma flip_cons a pkt b e : flip (a :: pkt) (b :: e) = N.lxor a b :: flip pkt e.
Proof. reflexivity. Qed.
Lemma flip_length pkt e : length pkt = length e -> length (flip pkt e) = length pkt.
Proof. intros. unfold flip. rewrite map_length, combine_length. lia. Qed.
Lemma flip_app : forall p1 p2 e1 e2, length p1 = length e1 ->
  flip (p1 ++ p2) (e1 ++ e2) = flip p1 e1 ++ flip p2 e2.
Proof.
  induction p1; intros p2 [|b e1] e2 H; try discriminate; [reflexivity|].
  cbn [app]. rewrite !flip_cons, IHp1 by (cbn in H; lia). reflexivity.
Qed.
Lemma flip_ok : forall p e, bytes_ok p -> bytes_ok e -> length p = length e -> bytes_ok (flip p e).
Proof.
  induction p; intros [|b e] Hp He L; try discriminate; [constructor|].
  inversion Hp; inversion He; subst. rewrite flip_cons. constructor.
  - apply (lt_pow2_lxor a b 8); assumption.
  - apply IHp; auto.
Qed.
Lemma rev_flip : forall p e, length p = length e -> rev (flip p e) = flip (rev p) (rev e).
Proof.
  induction p; intros [|b e] L; try discriminate; [reflexivity|].
  cbn in L. rewrite flip_cons. cbn [rev]. rewrite flip_app by (rewrite !rev_length; lia).
  rewrite IHp by lia. reflexivity.
Qed.
Lemma unle_flip : forall p e, bytes_ok p -> bytes_ok e -> length p = length e ->
  unle (flip p e) = N.lxor (unle p) (unle e).
Proof.
  induction p; intros [|b e] Hp He L; try discriminate; [reflexivity|].
  inversion Hp; inversion He; subst. unfold is_byte in *. rewrite flip_cons. cbn [unle].
  rewrite IHp by auto.
  rewrite !byte_shl; auto; [|apply (lt_pow2_lxor a b 8); assumption].
  rewrite N.shiftl_lxor. apply lxor_4.
Qed.
Lemma unbe_flip p e : bytes_ok p -> bytes_ok e -> length p = length e ->
  unbe (flip p e) = N.lxor (unbe p) (unbe e).
Proof.
  intros. unfold unbe. rewrite rev_flip by assumption. apply unle_flip.
  - apply Forall_rev; assumption.
  - apply Forall_rev; assumption.
  - rewrite !rev_length. assumption.
Qed.
Lemma unle_app : forall a b, unle (a ++ b) = unle a + 256 ^ N.of_nat (length a) * unle b.
Proof.
  induction a; intros b; [cbn [app unle length]; change (256 ^ N.of_nat 0) with 1; lia|].
  cbn [app unle length]. rewrite IHa, pow256_S. lia.
Qed.

Lemma crc32_flip d e : bytes_ok d -> bytes_ok e -> length d = length e ->
  crc32 0 (flip d e) = N.lxor (crc32 0 d) (steps (8 * length d) (unle e)).
Proof.
  intros Hd He L. unfold crc32. fold (feed (N.lxor 0 ones32) (flip d e)) (feed (N.lxor 0 ones32) d).
  rewrite !feed_steps by (auto using flip_ok). rewrite flip_length, unle_flip by auto.
  rewrite <- N.lxor_assoc, steps_lin.
  generalize (steps (8 * length d) (N.lxor (N.lxor 0 ones32) (unle d))) (steps (8 * length d) (unle e)) ones32.
  intros. xor_solve.
Qed.

Lemma crc32_bound d : bytes_ok d -> crc32 0 d < 2 ^ 32.
Proof. intros H. apply (crc32_spec d H). Qed.

Lemma chk_app d t : length t = 4%nat ->
  chk_crc (d ++ t) = Some (if list_eq_dec N.eq_dec (mem_hash_crc32 d) t then true else false, d).
Proof.
  intros H. unfold chk_crc. rewrite app_length, H.
  replace (Nat.leb 4 (length d + 4)) with true by (symmetry; apply Nat.leb_le; lia).
  replace (length d + 4 - 4)%nat with (length d) by lia.
  rewrite firstn_app, firstn_all, Nat.sub_diag, skipn_app, skipn_all, Nat.sub_diag.
  cbn [firstn skipn app]. rewrite app_nil_r. reflexivity.
Qed.

(** When a corrupted packet passes the check. *)
Lemma accept_iff d ed et : bytes_ok d -> bytes_ok ed -> bytes_ok et ->
  length d = length ed -> length et = 4%nat ->
  forall r, chk_crc (flip (add_crc d) (ed ++ et)) = Some r ->
  fst r = true -> steps (8 * length d) (unle ed) = unbe et.
Proof.
  intros Hd Hed Het L1 L2 r. unfold add_crc. rewrite flip_app by assumption.
  rewrite chk_app by (rewrite flip_length; unfold mem_hash_crc32; rewrite be_length; auto).
  destruct (list_eq_dec N.eq_dec _ _) as [E|]; intros E' F; apply (f_equal (option_map fst)) in E';
    cbn [option_map fst] in E'; rewrite F in E'; [|discriminate]. clear E' F.
  unfold mem_hash_crc32 in E. apply (f_equal unbe) in E.
  assert (HB : forall x, bytes_ok (be 4 x)) by (intros; unfold be; apply Forall_rev, le_ok).
  rewrite unbe_flip in E; [|apply HB|assumption|rewrite be_length; auto].
  assert (B : forall x, bytes_ok x -> unbe (be 4 (crc32 0 x)) = crc32 0 x).
  { intros x Hx. apply unbe_be. exact (crc32_bound x Hx). }
  rewrite !B in E by auto using flip_ok. rewrite crc32_flip in E by assumption.
  apply (f_equal (N.lxor (crc32 0 d))) in E. rewrite <- !N.lxor_assoc, N.lxor_nilpotent, !N.lxor_0_l in E.
  exact E.
Qed.

(** Shifting through cannot lose a non-zero register. *)
Lemma step_nonzero c : c < 2 ^ 32 -> step c = 0 -> c = 0.
Proof.
  intros H E. unfold step in E. destruct (N.odd c) eqn:O.
  - apply lxor_eq_0 in E. pose proof (div2_bound c 31 H) as B. rewrite E in B. vm_compute in B. discriminate.
  - rewrite N.lxor_0_r in E. rewrite (N.div2_odd c), E, O. reflexivity.
Qed.
Lemma steps_nonzero n : forall c, c < 2 ^ 32 -> steps n c = 0 -> c = 0.
Proof.
  induction n; intros c H E; [exact E|]. rewrite steps_S in E.
  apply step_nonzero in E; [|apply steps_bound; exact H]. apply IHn; assumption.
Qed.

(** Linear independence. *)
Fixpoint comb (cs : list bool) (vs : list N) : N :=
  match cs, vs with
  | c :: cs, v :: vs => N.lxor (if c then v else 0) (comb cs vs)
  | _, _ => 0
  end.
Fixpoint indep (fuel : nat) (vs : list N) : bool :=
  match fuel with
  | O => match vs with [] => true | _ => false end
  | S k =>
    match vs with
    | [] => true
    | v :: vs => negb (v =? 0) &&
        indep k (map (fun w => if N.testbit w (N.log2 v) then N.lxor w v else w) vs)
    end
  end.

Lemma indep_ok : forall fuel vs cs, indep fuel vs = true -> length cs = length vs -> comb cs vs = 0 ->
  Forall (fun c => c = false) cs.
Proof.
  induction fuel; intros [|v vs] [|c cs] I L E; try discriminate; try constructor;
  cbn [indep] in I; apply andb_prop in I as [Nv I].
  all: set (h := N.log2 v) in *.
  all: assert (Hv : N.testbit v h = true) by (apply N.bit_log2; destruct (N.eqb_spec v 0); [discriminate|assumption]).
  all: assert (R : forall cs vs, length cs = length vs ->
         comb cs (map (fun w => if N.testbit w h then N.lxor w v else w) vs)
         = N.lxor (comb cs vs) (if N.testbit (comb cs vs) h then v else 0)).
  1,3: (clear - Hv; induction cs as [|c cs IH]; intros [|w vs] L; try discriminate;
    [cbn; rewrite ?N.bits_0; reflexivity|]; cbn [map comb]; rewrite IH by (cbn in L; lia);
    rewrite N.lxor_spec; destruct c; [|rewrite N.bits_0, xorb_false_l; rewrite !N.lxor_0_l; reflexivity];
    destruct (N.testbit w h), (N.testbit (comb cs vs) h); cbn [xorb]; generalize (comb cs vs); intros; xor_solve).
  all: cbn in L; cbn [comb] in E.
  all: assert (Z : comb cs (map (fun w => if N.testbit w h then N.lxor w v else w) vs) = 0 /\ N.testbit (comb cs vs) h = c).
  1,3: (rewrite R by lia; destruct c;
    [apply lxor_eq_0 in E; rewrite <- E, Hv; split; [apply N.lxor_nilpotent|reflexivity]
    |rewrite N.lxor_0_l in E; rewrite E, N.bits_0; split; reflexivity]).
  all: destruct Z as [Z1 Z2].
  all: assert (F : Forall (fun c => c = false) cs) by (eapply IHfuel; [exact I|rewrite map_length; lia|exact Z1]).
  2: exact F.
  assert (C0 : forall vs, comb cs vs = 0).
  { clear - F. induction F; intros [|w vs]; try reflexivity. cbn [comb]. subst. rewrite IHF. reflexivity. }
  rewrite C0, N.bits_0 in Z2. congruence.
Qed.

Section Linear.
  Variable f : N -> N.
  Hypothesis f_lin : forall a b, f (N.lxor a b) = N.lxor (f a) (f b).
  Lemma f_0 : f 0 = 0.
  Proof. pose proof (f_lin 0 0) as E. rewrite (N.lxor_nilpotent (f 0)) in E. exact E. Qed.
  Definition basis (w : nat) : list N := map (fun i => f (2 ^ N.of_nat i)) (rev (seq 0 w)).
  Fixpoint bits (w : nat) (v : N) : list bool :=
    match w with O => [] | S k => N.testbit v (N.of_nat k) :: bits k v end.
  Lemma bits_mod w : forall v n, (w <= n)%nat -> bits w (v mod 2 ^ N.of_nat n) = bits w v.
  Proof.
    induction w; intros v n H; [reflexivity|]. cbn [bits]. rewrite IHw by lia.
    rewrite N.mod_pow2_bits_low by lia. reflexivity.
  Qed.
  Lemma bits_length w v : length (bits w v) = w.
  Proof. induction w; cbn; auto. Qed.
  Lemma top_bit k v : v < 2 ^ N.succ k ->
    v = N.lxor (if N.testbit v k then 2 ^ k else 0) (v mod 2 ^ k).
  Proof.
    intros H. apply N.bits_inj. intro i. rewrite N.lxor_spec.
    destruct (N.lt_trichotomy i k) as [L|[->|G0]].
    - rewrite N.mod_pow2_bits_low by assumption. destruct (N.testbit v k); rewrite ?N.bits_0, ?N.pow2_bits_false by lia;
      destruct (N.testbit v i); reflexivity.
    - rewrite N.mod_pow2_bits_high by lia. destruct (N.testbit v k) eqn:E; rewrite ?N.bits_0, ?N.pow2_bits_true; reflexivity.
    - rewrite N.mod_pow2_bits_high by lia.
      assert (N.testbit v i = false) as ->.
      { destruct (N.eq_dec v 0) as [->|]; [apply N.bits_0|]. apply N.bits_above_log2.
        apply N.log2_lt_pow2; [lia|]. eapply N.lt_le_trans; [exact H|]. apply N.pow_le_mono_r; lia. }
      destruct (N.testbit v k); rewrite ?N.bits_0, ?N.pow2_bits_false by lia; reflexivity.
  Qed.
  Lemma f_comb : forall w v, v < 2 ^ N.of_nat w -> f v = comb (bits w v) (basis w).
  Proof.
    induction w; intros v H.
    - change (2 ^ N.of_nat 0) with 1 in H. assert (v = 0) as -> by lia. apply f_0.
    - rewrite (top_bit (N.of_nat w) v) at 1 by (rewrite <- Nat2N.inj_succ; exact H).
      rewrite f_lin. unfold basis. rewrite seq_S, rev_app_distr. cbn [rev app map bits comb].
      rewrite Nat.add_0_l. f_equal.
      + destruct (N.testbit v (N.of_nat w)); [reflexivity|apply f_0].
      + rewrite IHw by (apply N.mod_lt, N.pow_nonzero; discriminate). rewrite bits_mod by lia. reflexivity.
  Qed.
  Lemma bits_zero : forall w v, v < 2 ^ N.of_nat w -> Forall (fun c => c = false) (bits w v) -> v = 0.
  Proof.
    induction w; intros v H F.
    - change (2 ^ N.of_nat 0) with 1 in H. lia.
    - cbn [bits] in F. inversion F as [|? ? F1 F2]; subst.
      rewrite (top_bit (N.of_nat w) v) by (rewrite <- Nat2N.inj_succ; exact H). rewrite F1, N.lxor_0_l.
      apply IHw; [apply N.mod_lt, N.pow_nonzero; discriminate|]. rewrite bits_mod by lia. exact F2.
  Qed.
  Lemma lin_inj w v : indep w (basis w) = true -> v < 2 ^ N.of_nat w -> f v = 0 -> v = 0.
  Proof.
    intros I H E. rewrite (f_comb w v H) in E. apply bits_zero with (w := w); [assumption|].
    eapply indep_ok; [exact I| |exact E]. unfold basis. rewrite map_length, rev_length, seq_length, bits_length. reflexivity.
  Qed.
End Linear.

(** A burst that starts [j] bits before the trailer. *)
Definition bswap (t : N) : N := unbe (le 4 t).
Definition synd (j : nat) (v : N) : N :=
  N.lxor (steps j (v mod 2 ^ N.of_nat j)) (bswap (N.shiftr v (N.of_nat j))).

Lemma mod_lxor a b k : N.lxor a b mod 2 ^ k = N.lxor (a mod 2 ^ k) (b mod 2 ^ k).
Proof.
  apply N.bits_inj. intro i. rewrite N.lxor_spec. destruct (N.lt_ge_cases i k).
  - rewrite !N.mod_pow2_bits_low, N.lxor_spec by assumption. reflexivity.
  - rewrite !N.mod_pow2_bits_high by assumption. reflexivity.
Qed.
Lemma le_lxor n : forall a b, le n (N.lxor a b) = flip (le n a) (le n b).
Proof.
  induction n; intros; [reflexivity|]. cbn [le]. rewrite flip_cons. f_equal.
  - apply (mod_lxor a b 8).
  - rewrite <- IHn. f_equal. change 256 with (2 ^ 8). rewrite <- !N.shiftr_div_pow2. apply N.shiftr_lxor.
Qed.
Lemma bswap_lin a b : bswap (N.lxor a b) = N.lxor (bswap a) (bswap b).
Proof.
  unfold bswap. rewrite le_lxor. apply unbe_flip; try apply le_ok. rewrite !le_length. reflexivity.
Qed.
Lemma synd_lin j a b : synd j (N.lxor a b) = N.lxor (synd j a) (synd j b).
Proof.
  unfold synd. rewrite mod_lxor, steps_lin, N.shiftr_lxor, bswap_lin. apply lxor_4.
Qed.

Lemma synd_check : forallb (fun j => indep 30 (basis (synd j) 30)) (seq 1 29) = true.
Proof. vm_compute. reflexivity. Qed.

Lemma synd_inj j v : (1 <= j <= 29)%nat -> v < 2 ^ 30 -> synd j v = 0 -> v = 0.
Proof.
  intros Hj Hv. apply (lin_inj (synd j) (synd_lin j) 30 v); [|exact Hv].
  pose proof synd_check as C. rewrite forallb_forall in C. apply C. apply in_seq. lia.
Qed.

(** Splitting a burst at the start of the trailer. *)
Lemma unle_split ed et : bytes_ok ed ->
  unle ed = unle (ed ++ et) mod 2 ^ N.of_nat (8 * length ed) /\
  unle et = N.shiftr (unle (ed ++ et)) (N.of_nat (8 * length ed)).
Proof.
  intros H. pose proof (unle_bound ed H) as B.
  assert (E : 256 ^ N.of_nat (length ed) = 2 ^ N.of_nat (8 * length ed)).
  { change 256 with (2 ^ 8). rewrite <- N.pow_mul_r. f_equal. lia. }
  rewrite unle_app, N.shiftr_div_pow2, <- E. rewrite (N.mul_comm (256 ^ _)).
  split.
  - rewrite N.mod_add, N.mod_small; auto. lia.
  - rewrite N.div_add, N.div_small, N.add_0_l; auto. lia.
Qed.

Lemma unbe_zero et : bytes_ok et -> unbe et = 0 -> unle et = 0.
Proof.
  intros H E. unfold unbe in E.
  assert (Z : forall l, unle l = 0 -> Forall (fun b => b = 0) l).
  { induction l; intros X; constructor; cbn [unle] in X; [lia|]. apply IHl. lia. }
  assert (Y : forall l, Forall (fun b => b = 0) l -> unle l = 0).
  { induction 1; cbn [unle]; lia. }
  apply Y. apply Z in E. apply Forall_rev in E. rewrite rev_involutive in E. exact E.
Qed.

Lemma shiftl_mod_low v k n : n <= k -> N.shiftl v k mod 2 ^ n = 0.
Proof.
  intros H. apply N.bits_inj. intro i. rewrite N.bits_0. destruct (N.lt_ge_cases i n).
  - rewrite N.mod_pow2_bits_low, N.shiftl_spec_low by lia. reflexivity.
  - apply N.mod_pow2_bits_high. assumption.
Qed.
Lemma shiftl_mod v k j : N.shiftl v k mod 2 ^ (j + k) = N.shiftl (v mod 2 ^ j) k.
Proof.
  apply N.bits_inj. intro i. destruct (N.lt_ge_cases i k).
  - rewrite N.mod_pow2_bits_low, !N.shiftl_spec_low by lia. reflexivity.
  - rewrite (N.shiftl_spec_high' (v mod 2 ^ j)) by assumption. destruct (N.lt_ge_cases i (j + k)).
    + rewrite !N.mod_pow2_bits_low, N.shiftl_spec_high' by lia. reflexivity.
    + rewrite !N.mod_pow2_bits_high by lia. reflexivity.
Qed.
Lemma shiftr_shiftl v k j : N.shiftr (N.shiftl v k) (j + k) = N.shiftr v j.
Proof. rewrite N.add_comm, <- N.shiftr_shiftr, N.shiftr_shiftl_l, N.sub_diag, N.shiftl_0_r by lia. reflexivity. Qed.

Lemma burst_rejected d e w k r : bytes_ok d -> bytes_ok e -> length e = (length d + 4)%nat ->
  burst e w k -> (w <= 30 \/ w <= 32 /\ (k + w <= 8 * N.of_nat (length d) \/ 8 * N.of_nat (length d) <= k)) ->
  chk_crc (flip (add_crc d) e) = Some r -> fst r = false.
Proof.
  intros Hd He L (v & Nv & Hv & Ev) Hw C.
  destruct (fst r) eqn:A; [exfalso|reflexivity].
  assert (exists ed et, e = ed ++ et /\ length d = length ed /\ length et = 4%nat) as (ed & et & -> & Led & Let).
  { exists (firstn (length d) e), (skipn (length d) e). rewrite firstn_skipn, firstn_length, skipn_length.
    split; [reflexivity|lia]. }
  clear L.
  apply Forall_app in He as [Hed Het].
  pose proof (accept_iff d ed et Hd Hed Het Led Let r C A) as S.
  destruct (unle_split ed et Hed) as [E1 E2]. rewrite <- Led, Ev in E1, E2.
  set (n := (8 * length d)%nat) in *.
  assert (Hv32 : v < 2 ^ 32).
  { eapply N.lt_le_trans; [exact Hv|]. apply N.pow_le_mono_r; lia. }
  destruct (N.le_gt_cases (N.of_nat n) k) as [K|K]; [|destruct (N.le_gt_cases (k + w) (N.of_nat n)) as [K'|K']].
  - rewrite shiftl_mod_low in E1 by assumption. rewrite E1, steps_0 in S.
    symmetry in S. apply unbe_zero in S; [|assumption]. rewrite S in E2.
    rewrite N.shiftr_shiftl_l in E2 by exact K.
    symmetry in E2. apply N.shiftl_eq_0_iff in E2. contradiction.
  - assert (X : N.shiftl v k < 2 ^ N.of_nat n).
    { rewrite N.shiftl_mul_pow2. eapply N.lt_le_trans; [apply N.mul_lt_mono_pos_r; [|exact Hv]|].
      - apply N.neq_0_lt_0, N.pow_nonzero. discriminate.
      - rewrite <- N.pow_add_r. apply N.pow_le_mono_r; lia. }
    rewrite N.mod_small in E1 by assumption.
    rewrite N.shiftr_div_pow2, N.div_small in E2 by assumption.
    assert (U : unbe et = 0).
    { unfold unbe. assert (Z : Forall (fun b => b = 0) et).
      { clear - E2. revert E2. generalize et. induction et0; intros X; constructor; cbn [unle] in X; [lia|]. apply IHet0. lia. }
      apply Forall_rev in Z. induction Z; cbn [unle]; lia. }
    rewrite U, E1 in S. rewrite <- (N2Nat.id k) in S. rewrite steps_shift_lt in S by lia.
    apply steps_nonzero in S; auto.
  - assert (Hw30 : w <= 30) by lia.
    set (j := (n - N.to_nat k)%nat).
    assert (Hn : N.of_nat n = N.of_nat j + k) by (unfold j; lia).
    rewrite Hn in E1, E2. rewrite shiftl_mod in E1. rewrite shiftr_shiftl in E2.
    assert (Y : synd j v = 0).
    { unfold synd. rewrite <- E2. unfold bswap. rewrite <- Let, le_unle by assumption. rewrite <- S, E1.
      rewrite <- (N2Nat.id k) at 1. rewrite steps_shift_lt by lia. fold j. apply N.lxor_nilpotent. }
    apply synd_inj in Y; [contradiction|unfold j; lia|].
    eapply N.lt_le_trans; [exact Hv|]. apply N.pow_le_mono_r; lia.
Qed.
