(** The permutation of sha3.c is the one of FIPS 202. *)
From Coq Require Import List Arith NArith Bool Lia ZifyBool ZifyNat ZifyN.
From Verif Require Import Bytes Sha3Model Sha3Spec.
Import ListNotations.
Open Scope N_scope.

Definition lanes (L : nat -> N) : list N := map L (seq 0 25).
Definition agree (L : nat -> N) (A : state) : Prop :=
  forall x y z, (x < 5)%nat -> (y < 5)%nat -> (z < 64)%nat ->
    N.testbit (L (x + 5 * y)%nat) (N.of_nat z) = A x y z.
Definition wfl (L : nat -> N) : Prop := forall i, (i < 25)%nat -> L i < 2 ^ 64.

Lemma seq25 : seq 0 25 = [0;1;2;3;4;5;6;7;8;9;10;11;12;13;14;15;16;17;18;19;20;21;22;23;24]%nat.
Proof. reflexivity. Qed.
Lemma nth_lanes L i : (i < 25)%nat -> nth i (lanes L) 0 = L i.
Proof.
  intros H. unfold lanes. rewrite (nth_indep _ 0 (L 0%nat)) by (rewrite map_length, seq_length; auto).
  rewrite map_nth, seq_nth by auto. reflexivity.
Qed.
Lemma to_lanes A : length A = 25%nat -> A = lanes (fun i => nth i A 0).
Proof.
  intros H. apply (nth_ext _ _ 0 0).
  - unfold lanes. rewrite map_length, seq_length. auto.
  - intros n Hn. rewrite nth_lanes by lia. reflexivity.
Qed.
Lemma lanes_ext L L' : (forall i, (i < 25)%nat -> L i = L' i) -> lanes L = lanes L'.
Proof. intros H. apply map_ext_in. intros i Hi. apply in_seq in Hi. apply H. lia. Qed.

(** What each step of the code does to the lanes. *)
Definition colp (L : nat -> N) (x : nat) : N :=
  N.lxor (N.lxor (N.lxor (N.lxor (L x) (L (x + 5)%nat)) (L (x + 10)%nat)) (L (x + 15)%nat)) (L (x + 20)%nat).
Definition l_theta (L : nat -> N) (i : nat) : N :=
  N.lxor (L i) (N.lxor (rotl64 (colp L ((i mod 5 + 1) mod 5)) 1) (colp L ((i mod 5 + 4) mod 5))).
Lemma theta_lanes L : keccak_theta (lanes L) = lanes (l_theta L).
Proof.
  unfold keccak_theta, lanes. rewrite seq25. cbn [map].
  cbv [fold_left seq xor_lane upd nth Nat.add]. reflexivity.
Qed.

Definition rho_off (i : nat) : N := nth i (0 :: map snd rho_rots) 0.
Definition l_rho (L : nat -> N) (i : nat) : N :=
  match i with O => L O | _ => rotl64 (L i) (rho_off i) end.
Lemma rho_lanes L : keccak_rho (lanes L) = lanes (l_rho L).
Proof.
  unfold keccak_rho, lanes, rho_rots. rewrite seq25. cbn [map].
  cbv [fold_left xor_lane upd nth fst snd]. reflexivity.
Qed.

Definition pi_src (i : nat) : nat := ((i mod 5 + 3 * (i / 5)) mod 5 + 5 * (i mod 5))%nat.
Definition l_pi (L : nat -> N) (i : nat) : N := L (pi_src i).
Lemma pi_lanes L : keccak_pi (lanes L) = lanes (l_pi L).
Proof.
  unfold keccak_pi, lanes, pi_moves. rewrite seq25. cbn [map].
  cbv [fold_left upd nth fst snd]. reflexivity.
Qed.

Definition l_chi (L : nat -> N) (i : nat) : N :=
  N.lxor (L i) (andn (L ((i mod 5 + 1) mod 5 + 5 * (i / 5))%nat)
                     (L ((i mod 5 + 2) mod 5 + 5 * (i / 5))%nat)).
Lemma chi_lanes L : keccak_chi (lanes L) = lanes (l_chi L).
Proof.
  unfold keccak_chi, lanes. rewrite seq25. cbn [map].
  cbv [fold_left chi_row xor_lane upd nth Nat.add]. reflexivity.
Qed.

Definition l_iota (rc : N) (L : nat -> N) (i : nat) : N :=
  match i with O => N.lxor (L O) rc | _ => L i end.
Lemma iota_lanes L rc : xor_lane (lanes L) 0 rc = lanes (l_iota rc L).
Proof. unfold lanes. rewrite seq25. reflexivity. Qed.

(** Bits. *)
Lemma bit_above q n : q < 2 ^ 64 -> 64 <= n -> N.testbit q n = false.
Proof.
  intros H Hn. destruct (N.eq_dec q 0) as [->|Hz]; [apply N.bits_0|].
  apply N.bits_above_log2. apply N.log2_lt_pow2; [lia|].
  eapply N.lt_le_trans; [exact H|]. apply N.pow_le_mono_r; lia.
Qed.
Lemma lt_bits q : (forall n, 64 <= n -> N.testbit q n = false) -> q < 2 ^ 64.
Proof.
  intros H. destruct (N.eq_dec q 0) as [->|Hz]; [reflexivity|].
  apply N.log2_lt_pow2; [lia|]. destruct (N.lt_ge_cases (N.log2 q) 64); auto.
  pose proof (N.bit_log2 q Hz) as B. rewrite H in B by auto. discriminate.
Qed.
Lemma lxor_64 a b : a < 2 ^ 64 -> b < 2 ^ 64 -> N.lxor a b < 2 ^ 64.
Proof. intros. apply lt_bits. intros. rewrite N.lxor_spec, !bit_above; auto. Qed.
Lemma rotl_bit q n z : q < 2 ^ 64 -> n < 64 -> z < 64 ->
  N.testbit (rotl64 q n) z = N.testbit q ((z + (64 - n)) mod 64).
Proof.
  intros Hq Hn Hz. unfold rotl64. rewrite N.lxor_spec, N.mod_pow2_bits_low, N.shiftr_spec by lia.
  destruct (N.lt_ge_cases z n).
  - rewrite N.shiftl_spec_low by lia. cbn [xorb]. f_equal. rewrite N.mod_small; lia.
  - rewrite N.shiftl_spec_high by lia. rewrite (bit_above q (z + (64 - n))) by lia.
    rewrite xorb_false_r. f_equal.
    replace (z + (64 - n)) with (z - n + 1 * 64) by lia. rewrite N.mod_add by lia.
    rewrite N.mod_small; lia.
Qed.
Lemma rotl_64 q n : n <= 64 -> q < 2 ^ 64 -> rotl64 q n < 2 ^ 64.
Proof.
  intros Hn Hq. unfold rotl64. apply lxor_64.
  - apply N.mod_lt. discriminate.
  - apply lt_bits. intros m Hm. rewrite N.shiftr_spec by lia. apply bit_above; auto. lia.
Qed.
Lemma andn_bit a b z : z < 64 -> N.testbit (andn a b) z = (negb (N.testbit a z) && N.testbit b z)%bool.
Proof. intros. unfold andn. rewrite N.land_spec, N.lnot_spec_low; auto. Qed.
Lemma andn_64 a b : b < 2 ^ 64 -> andn a b < 2 ^ 64.
Proof.
  intros H. apply lt_bits. intros. unfold andn. rewrite N.land_spec, (bit_above b), andb_false_r; auto.
Qed.

Lemma divmod5 x y : (x < 5)%nat -> ((x + 5 * y) mod 5 = x)%nat /\ ((x + 5 * y) / 5 = y)%nat.
Proof.
  intros H. rewrite (Nat.mul_comm 5 y). split.
  - rewrite Nat.mod_add by lia. apply Nat.mod_small; auto.
  - rewrite Nat.div_add by lia. rewrite Nat.div_small; auto.
Qed.
Lemma mod5_lt a : (a mod 5 < 5)%nat.
Proof. apply Nat.mod_upper_bound. lia. Qed.

Lemma colp_bit L A x z : agree L A -> (x < 5)%nat -> (z < 64)%nat ->
  N.testbit (colp L x) (N.of_nat z) = parity A x z.
Proof.
  intros H Hx Hz. unfold colp, parity. rewrite !N.lxor_spec.
  assert (E : forall y, (y < 5)%nat -> N.testbit (L (x + 5 * y)%nat) (N.of_nat z) = A x y z)
    by (intros; apply H; auto).
  pose proof (E 0%nat ltac:(lia)) as E0. pose proof (E 1%nat ltac:(lia)) as E1.
  pose proof (E 2%nat ltac:(lia)) as E2. pose proof (E 3%nat ltac:(lia)) as E3.
  pose proof (E 4%nat ltac:(lia)) as E4. clear E.
  rewrite Nat.mul_0_r, Nat.add_0_r in E0.
  change (5 * 1)%nat with 5%nat in E1. change (5 * 2)%nat with 10%nat in E2.
  change (5 * 3)%nat with 15%nat in E3. change (5 * 4)%nat with 20%nat in E4.
  rewrite E0, E1, E2, E3, E4. reflexivity.
Qed.
Lemma colp_64 L x : wfl L -> (x < 5)%nat -> colp L x < 2 ^ 64.
Proof. intros H Hx. unfold colp. repeat apply lxor_64; apply H; lia. Qed.

Lemma theta_agree L A : wfl L -> agree L A -> agree (l_theta L) (theta A).
Proof.
  intros W H x y z Hx Hy Hz. unfold l_theta, theta.
  destruct (divmod5 x y Hx) as [E1 _]. rewrite E1, !N.lxor_spec, (H x y z) by auto.
  rewrite (colp_bit L A) by (auto using mod5_lt).
  rewrite rotl_bit by (try apply colp_64; auto using mod5_lt; lia).
  replace ((N.of_nat z + (64 - 1)) mod 64) with (N.of_nat ((z + 63) mod 64)) by lia.
  rewrite (colp_bit L A); auto using mod5_lt.
  - rewrite (xorb_comm (parity A ((x + 1) mod 5) _)). reflexivity.
  - apply Nat.mod_upper_bound. lia.
Qed.
Lemma theta_wf L : wfl L -> wfl (l_theta L).
Proof.
  intros W i Hi. unfold l_theta. apply lxor_64; auto.
  apply lxor_64; [apply rotl_64; [lia|]|]; apply colp_64; auto using mod5_lt.
Qed.

Lemma rho_offsets : forallb (fun i => (rho_off i =? N.of_nat (offset (i mod 5) (i / 5))) && (rho_off i <? 64))%bool (seq 0 25) = true.
Proof. vm_compute. reflexivity. Qed.
Lemma rho_offset x y : (x < 5)%nat -> (y < 5)%nat ->
  rho_off (x + 5 * y) = N.of_nat (offset x y) /\ rho_off (x + 5 * y) < 64.
Proof.
  intros Hx Hy. pose proof rho_offsets as F. rewrite forallb_forall in F.
  specialize (F (x + 5 * y)%nat). destruct (divmod5 x y Hx) as [E1 E2]. rewrite E1, E2 in F.
  assert (I : In (x + 5 * y)%nat (seq 0 25)) by (apply in_seq; lia).
  apply F in I. apply andb_true_iff in I. destruct I as [I1 I2].
  split; [apply N.eqb_eq, I1|apply N.ltb_lt, I2].
Qed.
Lemma rho_agree L A : wfl L -> agree L A -> agree (l_rho L) (rho A).
Proof.
  intros W H x y z Hx Hy Hz. unfold rho.
  destruct (rho_offset x y Hx Hy) as [E1 E2].
  assert (Hm : ((z + (64 - offset x y)) mod 64 < 64)%nat) by (apply Nat.mod_upper_bound; lia).
  rewrite <- (H x y _ Hx Hy Hm).
  destruct (x + 5 * y)%nat as [|i] eqn:Ei; cbn [l_rho].
  - unfold rho_off in E1. cbn [nth] in E1.
    assert (O : offset x y = 0%nat) by lia. rewrite O. do 2 f_equal.
    change (64 - 0)%nat with 64%nat. replace (z + 64)%nat with (z + 1 * 64)%nat by lia.
    rewrite Nat.mod_add by lia. rewrite Nat.mod_small; auto.
  - rewrite rotl_bit by (try apply W; lia). f_equal. rewrite E1. lia.
Qed.
Lemma rho_wf L : wfl L -> wfl (l_rho L).
Proof.
  intros W [|i] Hi; unfold l_rho; [apply W; lia|]. apply rotl_64; auto.
  assert (E := Nat.div_mod (S i) 5 ltac:(lia)).
  replace (S i) with ((S i) mod 5 + 5 * (S i / 5))%nat by lia.
  destruct (rho_offset ((S i) mod 5) (S i / 5)) as [_ E2]; try apply mod5_lt; lia.
Qed.

Lemma pi_agree L A : agree L A -> agree (l_pi L) (pi A).
Proof.
  intros H x y z Hx Hy Hz. unfold l_pi, pi, pi_src.
  destruct (divmod5 x y Hx) as [E1 E2]. rewrite E1, E2. apply H; auto using mod5_lt.
Qed.
Lemma pi_wf L : wfl L -> wfl (l_pi L).
Proof.
  intros W i Hi. apply W. unfold pi_src.
  pose proof (mod5_lt (i mod 5 + 3 * (i / 5))). pose proof (mod5_lt i). lia.
Qed.

Lemma chi_agree L A : agree L A -> agree (l_chi L) (chi A).
Proof.
  intros H x y z Hx Hy Hz. unfold l_chi, chi.
  destruct (divmod5 x y Hx) as [E1 E2]. rewrite E1, E2.
  rewrite N.lxor_spec, andn_bit by lia. rewrite !H; auto using mod5_lt.
Qed.
Lemma chi_wf L : wfl L -> wfl (l_chi L).
Proof.
  intros W i Hi. unfold l_chi. apply lxor_64; auto. apply andn_64. apply W.
  pose proof (mod5_lt (i mod 5 + 2)). pose proof (Nat.div_lt_upper_bound i 5 5). lia.
Qed.

Lemma rc_table : forallb (fun ir => let rc := nth ir round_constants 0 in (rc <? 2 ^ 64) &&
  forallb (fun z => Bool.eqb (N.testbit rc (N.of_nat z)) (RC ir z)) (seq 0 64))%bool (seq 0 24) = true.
Proof. vm_compute. reflexivity. Qed.
Lemma rc_bit ir : (ir < 24)%nat -> nth ir round_constants 0 < 2 ^ 64 /\
  forall z, (z < 64)%nat -> N.testbit (nth ir round_constants 0) (N.of_nat z) = RC ir z.
Proof.
  intros Hi. pose proof rc_table as F. rewrite forallb_forall in F.
  assert (I : In ir (seq 0 24)) by (apply in_seq; lia). apply F in I.
  apply andb_true_iff in I. destruct I as [I1 I2]. split; [apply N.ltb_lt, I1|].
  intros z Hz. rewrite forallb_forall in I2. apply eqb_prop, I2, in_seq. lia.
Qed.
Lemma iota_agree L A ir rc : (forall z, (z < 64)%nat -> N.testbit rc (N.of_nat z) = RC ir z) ->
  agree L A -> agree (l_iota rc L) (iota ir A).
Proof.
  intros HR H x y z Hx Hy Hz. unfold iota.
  destruct (Nat.eqb x 0 && Nat.eqb y 0)%bool eqn:E.
  - assert (x = 0%nat /\ y = 0%nat) as [-> ->] by lia.
    cbn [Nat.add Nat.mul l_iota]. rewrite N.lxor_spec, HR by auto. f_equal. apply (H 0 0 z)%nat; auto.
  - rewrite <- (H x y z) by auto. destruct (x + 5 * y)%nat eqn:E1; [lia|reflexivity].
Qed.
Lemma iota_wf L rc : rc < 2 ^ 64 -> wfl L -> wfl (l_iota rc L).
Proof. intros Hr W [|i] Hi; cbn [l_iota]; [apply lxor_64; auto; apply W; lia|auto]. Qed.

Lemma round_lanes L rc :
  keccak_round (lanes L) rc = lanes (l_iota rc (l_chi (l_pi (l_rho (l_theta L))))).
Proof.
  unfold keccak_round. rewrite theta_lanes, rho_lanes, pi_lanes, chi_lanes. apply iota_lanes.
Qed.
Lemma round_wf L rc : rc < 2 ^ 64 -> wfl L -> wfl (l_iota rc (l_chi (l_pi (l_rho (l_theta L))))).
Proof. intros Hr W. apply iota_wf; auto. apply chi_wf, pi_wf, rho_wf, theta_wf; auto. Qed.
Lemma round_agree L A rc ir : (forall z, (z < 64)%nat -> N.testbit rc (N.of_nat z) = RC ir z) ->
  wfl L -> agree L A -> agree (l_iota rc (l_chi (l_pi (l_rho (l_theta L))))) (Rnd A ir).
Proof.
  intros Hr W H. unfold Rnd. apply iota_agree; auto. apply chi_agree, pi_agree, rho_agree.
  - apply theta_wf; auto.
  - apply theta_agree; auto.
Qed.
Lemma Forall2_cons_iff {A B} (P : A -> B -> Prop) a l b m :
  Forall2 P (a :: l) (b :: m) <-> P a b /\ Forall2 P l m.
Proof. split; [intros H; inversion H; auto|intros [? ?]; constructor; auto]. Qed.
Lemma fold_cons {A B} (f : A -> B -> A) b l a : fold_left f (b :: l) a = fold_left f l (f a b).
Proof. reflexivity. Qed.
Lemma rounds : forall rcs irs L A, wfl L -> agree L A ->
  Forall2 (fun rc ir => rc < 2 ^ 64 /\ forall z, (z < 64)%nat -> N.testbit rc (N.of_nat z) = RC ir z) rcs irs ->
  exists L', fold_left keccak_round rcs (lanes L) = lanes L' /\ wfl L' /\ agree L' (fold_left Rnd irs A).
Proof.
  induction rcs as [|rc rcs IH]; intros irs L A W H F.
  - destruct irs as [|ir irs]; [|inversion F]. exists L. split; [reflexivity|split; assumption].
  - destruct irs as [|ir irs]; [inversion F|].
    apply Forall2_cons_iff in F. destruct F as [[F1 F2] F3].
    destruct (IH irs _ (Rnd A ir) (round_wf L rc F1 W) (round_agree L A rc ir F2 W H) F3) as (L' & E & R).
    exists L'. split; [|rewrite fold_cons; exact R]. rewrite fold_cons, round_lanes. exact E.
Qed.
Lemma rcs_ok : Forall2 (fun rc ir => rc < 2 ^ 64 /\ forall z, (z < 64)%nat -> N.testbit rc (N.of_nat z) = RC ir z)
  round_constants (seq 0 24).
Proof.
  assert (G : forall n rcs k, length rcs = n ->
    (forall i, (i < n)%nat -> nth i rcs 0 < 2 ^ 64 /\
      forall z, (z < 64)%nat -> N.testbit (nth i rcs 0) (N.of_nat z) = RC (k + i) z) ->
    Forall2 (fun rc ir => rc < 2 ^ 64 /\ forall z, (z < 64)%nat -> N.testbit rc (N.of_nat z) = RC ir z)
      rcs (seq k n)).
  { induction n as [|n IH]; intros [|r rcs] k Hl Hi; try discriminate; cbn [seq]; constructor.
    - specialize (Hi 0%nat ltac:(lia)). rewrite Nat.add_0_r in Hi. exact Hi.
    - apply IH; [injection Hl; auto|]. intros i Hlt. specialize (Hi (S i) ltac:(lia)).
      replace (k + S i)%nat with (S k + i)%nat in Hi by lia. exact Hi. }
  apply G; [reflexivity|]. intros i Hi. apply rc_bit. auto.
Qed.

(** The state of the code as a bit string. *)
Definition holds (h : list N) (S : bitstring) : Prop :=
  length h = 25%nat /\ Forall (fun q => q < 2 ^ 64) h /\
  forall i, (i < 1600)%nat -> N.testbit (nth (i / 64) h 0) (N.of_nat (i mod 64)) = S i.

Lemma holds_agree h S : holds h S ->
  wfl (fun i => nth i h 0) /\ agree (fun i => nth i h 0) (to_array S).
Proof.
  intros (Hl & Hf & Hb). split.
  - intros i Hi. rewrite Forall_forall in Hf. apply Hf, nth_In. lia.
  - intros x y z Hx Hy Hz. unfold to_array. rewrite <- Hb by lia.
    replace (64 * (5 * y + x) + z)%nat with (z + (x + 5 * y) * 64)%nat by lia.
    rewrite Nat.mod_add, Nat.div_add, Nat.div_small, Nat.mod_small by lia. reflexivity.
Qed.
Lemma agree_holds L A : wfl L -> agree L A -> holds (lanes L) (to_string A).
Proof.
  intros W H. split; [|split].
  - unfold lanes. rewrite map_length. apply seq_length.
  - unfold lanes. apply Forall_forall. intros q Hq. apply in_map_iff in Hq.
    destruct Hq as (i & <- & Hi). apply in_seq in Hi. apply W. lia.
  - intros i Hi. assert (Hd : (i / 64 < 25)%nat) by (apply Nat.div_lt_upper_bound; lia).
    rewrite nth_lanes by auto. unfold to_string.
    rewrite <- H.
    + pose proof (Nat.div_mod (i / 64) 5 ltac:(lia)) as E. do 2 f_equal. lia.
    + apply mod5_lt.
    + apply Nat.div_lt_upper_bound; lia.
    + apply Nat.mod_upper_bound. lia.
Qed.
Lemma permutation_spec h S : holds h S -> holds (permutation h) (keccak_f S).
Proof.
  intros H. destruct (holds_agree h S H) as [W Ag]. destruct H as [Hl _].
  rewrite (to_lanes h Hl). unfold permutation, keccak_f.
  destruct (rounds round_constants (seq 0 24) _ _ W Ag rcs_ok) as (L' & E & W' & Ag').
  rewrite E. apply agree_holds; auto.
Qed.
