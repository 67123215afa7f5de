(** The compression function of md5.c is the one of RFC 1321. *)
From Coq Require Import List Arith NArith Bool Lia ZifyBool ZifyNat ZifyN.
From Verif Require Import Bytes Md5Model Md5Spec.
Import ListNotations.
Open Scope N_scope.

Definition u32 (x : N) : Prop := x < 2 ^ 32.
Lemma u32_bit x n : u32 x -> 32 <= n -> N.testbit x n = false.
Proof.
  intros Hx Hn. destruct (N.eq_dec x 0) as [->|Hz]; [apply N.bits_0|].
  apply N.bits_above_log2. apply N.log2_lt_pow2; [lia|].
  eapply N.lt_le_trans; [exact Hx|]. apply N.pow_le_mono_r; lia.
Qed.
Lemma w32_u32 x : u32 (w32 x).
Proof. apply N.mod_lt. discriminate. Qed.
Lemma ones32_bit n : N.testbit (N.ones 32) n = (n <? 32).
Proof. destruct (N.ltb_spec n 32); [apply N.ones_spec_low; lia|apply N.ones_spec_high; lia]. Qed.

Lemma F_ok x y z : u32 x -> u32 y -> u32 z -> md5_F x y z = F x y z.
Proof.
  intros Hx Hy Hz. unfold md5_F, F, not32. apply N.bits_inj. intros n.
  rewrite !N.lxor_spec, !N.lor_spec, !N.land_spec, !N.lxor_spec, ones32_bit.
  destruct (N.ltb_spec n 32) as [L|L].
  - destruct (N.testbit x n), (N.testbit y n), (N.testbit z n); reflexivity.
  - rewrite !u32_bit by auto. reflexivity.
Qed.
Lemma rol_ok x s : u32 x -> s <= 32 -> rotl32 x s = rol x s.
Proof.
  intros Hx Hs. unfold rotl32, rol, w32. apply N.bits_inj. intros n.
  rewrite N.lxor_spec, N.lor_spec, N.shiftr_spec by lia.
  destruct (N.lt_ge_cases n s) as [L|L].
  - rewrite N.mod_pow2_bits_low by lia. rewrite N.shiftl_spec_low by auto.
    destruct (N.testbit x (n + (32 - s))); reflexivity.
  - rewrite (u32_bit x (n + (32 - s))) by (auto; lia).
    destruct (N.testbit (N.shiftl x s mod 2 ^ 32) n); reflexivity.
Qed.
Lemma sum_ok a f x t : w32 (a + w32 (w32 (f + x) + t)) = add32 (add32 (add32 a f) x) t.
Proof.
  unfold w32, add32. repeat first [rewrite N.add_mod_idemp_l by discriminate | rewrite N.add_mod_idemp_r by discriminate].
  rewrite <- (N.add_assoc ((a + f) mod 2 ^ 32)), N.add_mod_idemp_l by discriminate. f_equal. lia.
Qed.

(** The registers of step [i], seen as the tuple of the RFC. *)
Definition reg (l : list N) (i j : nat) : N := nth ((j + 4 - i mod 4) mod 4) l 0.
Definition tup (l : list N) (i : nat) : regs := (reg l i 0, reg l i 1, reg l i 2, reg l i 3).
Definition desc (i : nat) : md5_step :=
  let p j := ((j + 4 - i mod 4) mod 4)%nat in
  mk_step (S (i / 16)) (p 0%nat) (p 1%nat) (p 2%nat) (p 3%nat) (kth i) (shifts i) (nth i T 0).
Lemma steps_desc : md5_steps = map desc (seq 0 64).
Proof. vm_compute. reflexivity. Qed.
Definition wf4 (l : list N) : Prop := length l = 4%nat /\ Forall u32 l.
Lemma wf4_nth l i : wf4 l -> u32 (nth i l 0).
Proof.
  intros [Hl Hf]. destruct (Nat.lt_ge_cases i 4) as [L|L].
  - rewrite Forall_forall in Hf. apply Hf, nth_In. lia.
  - rewrite nth_overflow by lia. reflexivity.
Qed.
Lemma setr_length : forall l i v, length (setr l i v) = length l.
Proof. induction l as [|a l IH]; intros [|i] v; cbn [setr length]; auto. Qed.
Lemma setr_Forall : forall l i v, Forall u32 l -> u32 v -> Forall u32 (setr l i v).
Proof.
  induction l as [|a l IH]; intros [|i] v Hl Hv; cbn [setr]; auto; inversion Hl; subst; constructor; auto.
Qed.
Lemma do_wf x l s : wf4 l -> wf4 (md5_do x l s).
Proof.
  intros [Hl Hf]. unfold md5_do. split; [rewrite setr_length; auto|].
  apply setr_Forall; auto. apply w32_u32.
Qed.
Lemma shifts_le i : shifts i <= 32.
Proof.
  unfold shifts. assert (i mod 4 < 4)%nat by (apply Nat.mod_upper_bound; lia).
  destruct (i mod 4)%nat as [|[|[|[|k]]]]; try lia; destruct (i / 16)%nat as [|[|[|]]]; cbn [nth]; lia.
Qed.
Lemma func_ok i b c d : u32 b -> u32 c -> u32 d ->
  match S (i / 16) with 1%nat => md5_F | 2%nat => md5_G | 3%nat => md5_H | _ => md5_I end b c d = func i b c d.
Proof.
  intros Hb Hc Hd. unfold func. destruct (i / 16)%nat as [|[|[|k]]]; try reflexivity. apply F_ok; auto.
Qed.
Lemma do_val x l i : wf4 l ->
  md5_do x l (desc i) = setr l ((0 + 4 - i mod 4) mod 4)
    (add32 (reg l i 1) (rol (add32 (add32 (add32 (reg l i 0) (func i (reg l i 1) (reg l i 2) (reg l i 3)))
       (nth (kth i) x 0)) (nth i T 0)) (shifts i))).
Proof.
  intros Hw. unfold md5_do, desc. cbn [st_round st_a st_b st_c st_d st_k st_s st_ac].
  fold (reg l i 0) (reg l i 1) (reg l i 2) (reg l i 3).
  rewrite func_ok by (apply wf4_nth; auto). rewrite sum_ok. f_equal.
  rewrite rol_ok by (auto using shifts_le; apply w32_u32).
  unfold w32, add32. f_equal. apply N.add_comm.
Qed.
Lemma do_tup x l i : wf4 l -> tup (md5_do x l (desc i)) (S i) = step x (tup l i) i.
Proof.
  intros Hw. rewrite do_val by auto.
  unfold step, tup. set (v := add32 (reg l i 1) _). clearbody v.
  destruct Hw as [Hl _]. destruct l as [|a [|b [|c [|d [|e l]]]]]; try discriminate.
  unfold reg. assert (H4 : (i mod 4 < 4)%nat) by (apply Nat.mod_upper_bound; lia).
  assert (HS : ((S i) mod 4 = match i mod 4 with 3 => 0 | k => S k end)%nat).
  { pose proof (Nat.div_mod i 4 ltac:(lia)) as D.
    destruct (i mod 4)%nat as [|[|[|[|k]]]]; try lia. }
  rewrite HS. destruct (i mod 4)%nat as [|[|[|[|k]]]]; try lia; reflexivity.
Qed.
Lemma fold_tup x : forall n i l, wf4 l ->
  wf4 (fold_left (md5_do x) (map desc (seq i n)) l) /\
  tup (fold_left (md5_do x) (map desc (seq i n)) l) (i + n) = fold_left (step x) (seq i n) (tup l i).
Proof.
  induction n as [|n IH]; intros i l Hw; cbn [seq map fold_left].
  - rewrite Nat.add_0_r. auto.
  - destruct (IH (S i) (md5_do x l (desc i)) (do_wf x l (desc i) Hw)) as [W E].
    split; [exact W|]. rewrite Nat.add_succ_r. cbn [Nat.add] in E. rewrite E, do_tup; auto.
Qed.
Lemma tup0 l : tup l 0 = (nth 0 l 0, nth 1 l 0, nth 2 l 0, nth 3 l 0).
Proof. reflexivity. Qed.
Lemma tup64 l : tup l (0 + 64) = (nth 0 l 0, nth 1 l 0, nth 2 l 0, nth 3 l 0).
Proof. reflexivity. Qed.
Lemma process_wf h buf : wf4 (md5_process h buf).
Proof. unfold md5_process. split; [reflexivity|]. repeat constructor; apply w32_u32. Qed.
Lemma process_ok h buf : wf4 h -> tup (md5_process h buf) 0 = compress (tup h 0) buf.
Proof.
  intros Hw. unfold md5_process, compress. rewrite steps_desc. fold (words16 buf).
  destruct (fold_tup (words16 buf) 64 0 h Hw) as [_ E]. rewrite tup64 in E.
  rewrite (tup0 h) at 1. rewrite <- E. rewrite tup0. reflexivity.
Qed.
