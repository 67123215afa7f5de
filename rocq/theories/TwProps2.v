(* C43: what is false, and examples. *)
From Coq Require Import ZArith List Bool Lia ZifyBool.
From Verif Require Import SeqNoModel TwModel TwProofs TwProps.
Import ListNotations.
Open Scope Z_scope.

(* Every history of a wheel that moves at least every gap nanoseconds: the
   clock does not go back, and the time-outs are any that the wheel takes. *)
Inductive ticked (gap : Z) : wheel -> Z -> Prop :=
| tk_init : forall now fl, ticked gap (timerwheel_init now fl) (now - 2 ^ 20)
| tk_put : forall w m flow seqno t rto w' b, ticked gap w m -> m <= t <= m + gap -> 0 <= rto < 2 ^ 36 ->
    timerwheel_rxm w flow seqno t rto = (w', b) -> ticked gap w' m
| tk_move : forall w m env now w' os, ticked gap w m -> m <= now <= m + gap ->
    timerwheel_move env now w = (w', os) -> ticked gap w' now.

Definition ms : Z := 2 ^ 20.   (* a slot *)
Definition T0 : Z := 1024 * ms.

(* One flow, with time-out rto; packet 5 is not acknowledged. *)
Definition flows_at (rto : Z) : Z -> fcb := fun _ => Fcb true 5 (2 ^ 50) rto 0.
Definition env_ok : rxm -> below := fun _ => Written.

Definition put1st (w : wheel) (t rto : Z) : wheel := fst (timerwheel_rxm w 1 5 t rto).
Definition moved (w : wheel) (now : Z) : wheel := fst (timerwheel_move env_ok now w).
Definition handled (w : wheel) (now : Z) : list (rxm * outcome) := snd (timerwheel_move env_ok now w).

(* False in full, even with a move every 8 ms (2^23 ns): too early.  A
   time-out of 264 ms that is put on the wheel 4 ms after it moved comes out
   of it one millisecond later, twice: its slot is one that the wheel has
   yet to pass. *)
Theorem tw_not_early_refuted :
  ~ (forall w m env now w' os r o, ticked (2 ^ 23) w m -> m <= now <= m + 2 ^ 23 ->
       timerwheel_move env now w = (w', os) -> In (r, o) os ->
       r_at r + r_rto r - resolution (r_rto r) <= now).
Proof.
  intros H.
  pose (w1 := moved (timerwheel_init T0 (flows_at (252 * ms))) T0).
  pose (w2 := put1st w1 (T0 + 4 * ms) (252 * ms)).
  assert (K1 : ticked (2 ^ 23) w1 T0).
  { apply (tk_move _ (timerwheel_init T0 (flows_at (252 * ms))) (T0 - 2 ^ 20) env_ok T0 _
             (handled (timerwheel_init T0 (flows_at (252 * ms))) T0)); [apply tk_init | unfold T0, ms; lia |].
    apply surjective_pairing. }
  assert (K2 : ticked (2 ^ 23) w2 T0).
  { apply (tk_put _ w1 T0 1 5 (T0 + 4 * ms) (252 * ms) _ (snd (timerwheel_rxm w1 1 5 (T0 + 4 * ms) (252 * ms))));
      [exact K1 | unfold ms; lia | unfold ms; lia |]. apply surjective_pairing. }
  assert (O : handled w2 (T0 + 5 * ms) =
              [(Rxm 1 5 (T0 + 4 * ms) (T0 + 4 * ms) (252 * ms), Resent (252 * ms));
               (Rxm 1 5 (T0 + 4 * ms) (T0 + 5 * ms) (252 * ms), Resent (252 * ms))]) by (vm_compute; reflexivity).
  specialize (H w2 T0 env_ok (T0 + 5 * ms) (moved w2 (T0 + 5 * ms)) (handled w2 (T0 + 5 * ms))
                (Rxm 1 5 (T0 + 4 * ms) (T0 + 4 * ms) (252 * ms)) (Resent (252 * ms)) K2 ltac:(unfold ms; lia)
                (surjective_pairing _)).
  rewrite O in H. specialize (H (or_introl eq_refl)). vm_compute in H. apply H. reflexivity.
Qed.
Print Assumptions tw_not_early_refuted.

(* Too late: timerwheel_rxm reads the clock and only then takes the lock.  If
   the wheel moves in between, an entry with a short time-out is put behind
   its pointer, and waits for a whole turn.  Here puts may use a clock that
   was read up to 8 ms before the last move. *)
Inductive raced (gap : Z) : wheel -> Z -> Prop :=
| rc_ticked : forall w m, ticked gap w m -> raced gap w m
| rc_put : forall w m flow seqno t rto w' b, raced gap w m -> m - gap <= t <= m + gap -> 0 <= rto < 2 ^ 36 ->
    timerwheel_rxm w flow seqno t rto = (w', b) -> raced gap w' m
| rc_move : forall w m env now w' os, raced gap w m -> m <= now <= m + gap ->
    timerwheel_move env now w = (w', os) -> raced gap w' now.

Theorem tw_not_late_race_refuted :
  ~ (forall w m env now w' os e, raced (2 ^ 23) w m -> m <= now <= m + 2 ^ 23 ->
       timerwheel_move env now w = (w', os) -> on_wheel w' e ->
       now < r_at e + r_rto e + resolution (r_rto e)).
Proof.
  intros H. pose (rto := 250000).
  pose (w1 := moved (timerwheel_init T0 (flows_at rto)) (T0 + 2 * ms)).
  pose (w2 := put1st w1 T0 rto).
  assert (K1 : raced (2 ^ 23) w1 (T0 + 2 * ms)).
  { apply rc_ticked. apply (tk_move _ (timerwheel_init T0 (flows_at rto)) (T0 - 2 ^ 20) env_ok (T0 + 2 * ms) _
             (handled (timerwheel_init T0 (flows_at rto)) (T0 + 2 * ms))); [apply tk_init | unfold T0, ms; lia |].
    apply surjective_pairing. }
  assert (K2 : raced (2 ^ 23) w2 (T0 + 2 * ms)).
  { apply (rc_put _ w1 (T0 + 2 * ms) 1 5 T0 rto _ (snd (timerwheel_rxm w1 1 5 T0 rto)));
      [exact K1 | unfold ms; lia | unfold rto; lia |]. apply surjective_pairing. }
  assert (O : rxms (moved w2 (T0 + 10 * ms)) 0 1 = [Rxm 1 5 T0 T0 rto]) by (vm_compute; reflexivity).
  specialize (H w2 (T0 + 2 * ms) env_ok (T0 + 10 * ms) (moved w2 (T0 + 10 * ms)) (handled w2 (T0 + 10 * ms))
                (Rxm 1 5 T0 T0 rto) K2 ltac:(unfold ms; lia) (surjective_pairing _)).
  assert (L : on_wheel (moved w2 (T0 + 10 * ms)) (Rxm 1 5 T0 T0 rto)) by (exists 0, 1; rewrite O; now left).
  specialize (H L). vm_compute in H. discriminate H.
Qed.
Print Assumptions tw_not_late_race_refuted.

(* Too late: a process that was stopped for just one turn of the wheel (268
   ms) handles nothing when it goes on. *)
Theorem tw_not_late_pause_refuted :
  ~ (forall w m env now w' os e, driven w m -> m <= now ->
       timerwheel_move env now w = (w', os) -> on_wheel w' e ->
       now < r_at e + r_rto e + resolution (r_rto e)).
Proof.
  intros H. pose (w1 := put1st (timerwheel_init T0 (flows_at ms)) T0 ms).
  assert (K : driven w1 (T0 - 2 ^ 20)).
  { apply (dr_put (timerwheel_init T0 (flows_at ms)) (T0 - 2 ^ 20) 1 5 T0 ms _
            (snd (timerwheel_rxm (timerwheel_init T0 (flows_at ms)) 1 5 T0 ms))).
    - apply dr_init.
    - lia.
    - split; [unfold ms; lia|]. vm_compute. discriminate.
    - apply surjective_pairing. }
  assert (O : rxms (moved w1 (T0 + 255 * ms)) 0 2 = [Rxm 1 5 T0 T0 ms]) by (vm_compute; reflexivity).
  specialize (H w1 (T0 - 2 ^ 20) env_ok (T0 + 255 * ms) (moved w1 (T0 + 255 * ms)) (handled w1 (T0 + 255 * ms))
                (Rxm 1 5 T0 T0 ms) K ltac:(unfold ms; lia) (surjective_pairing _)).
  assert (L : on_wheel (moved w1 (T0 + 255 * ms)) (Rxm 1 5 T0 T0 ms)) by (exists 0, 2; rewrite O; now left).
  specialize (H L). vm_compute in H. discriminate H.
Qed.
Print Assumptions tw_not_late_pause_refuted.

(* A time-out of 69 seconds or more is never put on the wheel: the packet is
   sent once, and frcti_snd (frct.c:762) does not look at the result. *)
Theorem tw_out_of_range : forall w flow seqno t rto, 2 ^ 36 <= rto ->
  timerwheel_rxm w flow seqno t rto = (w, false).
Proof.
  intros w flow seqno t rto H. unfold timerwheel_rxm, place, RXMQ_RES, RXMQ_BUMP, RXMQ_SLOTS.
  rewrite !Z.shiftr_shiftr by lia. change (20 + 4) with 24. change (24 + 4) with 28.
  rewrite !Z.shiftr_div_pow2 by lia.
  assert (256 <= rto / 2 ^ 20) by (apply Z.div_le_lower_bound; lia).
  assert (256 <= rto / 2 ^ 24) by (apply Z.div_le_lower_bound; lia).
  assert (256 <= rto / 2 ^ 28) by (apply Z.div_le_lower_bound; lia).
  replace (rto / 2 ^ 20 <? 256) with false by lia. replace (rto / 2 ^ 24 <? 256) with false by lia.
  replace (rto / 2 ^ 28 <? 256) with false by lia. reflexivity.
Qed.
Print Assumptions tw_out_of_range.

(* An example for tw_deadlines_partial: a packet with a time-out of 10 slots;
   it is resent at the first move past it, with double the time-out (it was
   the measured packet); then it is acknowledged and removed. *)
Definition ex_flows (lwe : Z) : Z -> fcb := fun _ => Fcb true lwe (2 ^ 50) (10 * ms) 5.
Definition x1 : wheel := put1st (timerwheel_init T0 (ex_flows 5)) T0 (10 * ms).
Definition x2 : wheel := moved x1 (T0 + 9 * ms).
Definition x3 : wheel := moved x2 (T0 + 12 * ms).
Definition x4 : wheel := Wheel (rxms x3) (prv_rxm x3) (ex_flows 6).

Example tw_example :
  driven x1 (T0 - 2 ^ 20) /\ handled x1 (T0 + 9 * ms) = [] /\ driven x2 (T0 + 9 * ms) /\
  handled x2 (T0 + 12 * ms) = [(Rxm 1 5 T0 T0 (10 * ms), Resent (20 * ms))] /\ driven x4 (T0 + 12 * ms) /\
  handled x4 (T0 + 33 * ms) = [(Rxm 1 5 T0 (T0 + 12 * ms) (20 * ms), Removed)].
Proof.
  assert (K1 : driven x1 (T0 - 2 ^ 20)).
  { apply (dr_put (timerwheel_init T0 (ex_flows 5)) (T0 - 2 ^ 20) 1 5 T0 (10 * ms) _
            (snd (timerwheel_rxm (timerwheel_init T0 (ex_flows 5)) 1 5 T0 (10 * ms)))).
    - apply dr_init.
    - lia.
    - split; [unfold ms; lia|]. vm_compute. discriminate.
    - apply surjective_pairing. }
  assert (O1 : handled x1 (T0 + 9 * ms) = []) by (vm_compute; reflexivity).
  assert (K2 : driven x2 (T0 + 9 * ms)).
  { apply (dr_move x1 (T0 - 2 ^ 20) env_ok (T0 + 9 * ms) x2 (handled x1 (T0 + 9 * ms)) K1).
    - unfold ms; lia.
    - vm_compute. reflexivity.
    - apply surjective_pairing.
    - rewrite O1. constructor. }
  assert (O2 : handled x2 (T0 + 12 * ms) = [(Rxm 1 5 T0 T0 (10 * ms), Resent (20 * ms))]) by (vm_compute; reflexivity).
  assert (K3 : driven x3 (T0 + 12 * ms)).
  { apply (dr_move x2 (T0 + 9 * ms) env_ok (T0 + 12 * ms) x3 (handled x2 (T0 + 12 * ms)) K2).
    - unfold ms; lia.
    - vm_compute. reflexivity.
    - apply surjective_pairing.
    - rewrite O2. constructor; [|constructor]. cbn [snd out_in_range]. split; [unfold ms; lia|]. vm_compute. discriminate. }
  split; [exact K1|]. split; [exact O1|]. split; [exact K2|]. split; [exact O2|].
  split; [apply dr_flows; exact K3|]. vm_compute. reflexivity.
Qed.
