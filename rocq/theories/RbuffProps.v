(** Properties C03-C06: the flow packet ring. *)
From Coq Require Import List NArith Bool.
From Verif Require Import RbuffModel RbuffSpec RbuffProofs.
Import ListNotations.
Open Scope N_scope.

(** C03.  For every ring size and every schedule of writers, readers, time-outs
    and acl changes without deaths and without a flow-down release on a full
    ring: the packets reported written are, in order, the packets already
    delivered followed by the packets still queued. *)
Theorem rbuff_fifo lg s evs :
  exec lg (benign lg) s evs ->
  written evs = delivered evs ++ contents lg (rb s) /\
  (length (contents lg (rb s)) <= capacity lg)%nat.
Proof. exact (c03_fifo lg s evs). Qed.
Print Assumptions rbuff_fifo.

(** C03.  A write reports "try again" only when the ring is full, and then
    leaves it as it was.  Holds for every schedule whatsoever. *)
Theorem rbuff_eagain_only_when_full lg s evs l s' es t a idx :
  exec lg any_schedule s evs -> step lg s l = Some (s', es) ->
  In (EvWrite t a idx EAGAIN) es ->
  length (contents lg (rb s)) = capacity lg /\ rb s' = rb s.
Proof. exact (c03_eagain_write lg any_schedule s evs l s' es t a idx). Qed.
Print Assumptions rbuff_eagain_only_when_full.

(** C03.  A read reports "try again" only when the ring is empty; only the
    non-blocking read does so (the assert on line 221 never fires). *)
Theorem read_b_never_eagain lg s evs l s' es t :
  exec lg any_schedule s evs -> step lg s l = Some (s', es) ->
  In (EvRead t (inl EAGAIN)) es ->
  contents lg (rb s) = [] /\ l = LRead t /\ rb s' = rb s.
Proof. exact (c03_eagain_read lg any_schedule s evs l s' es t). Qed.
Print Assumptions read_b_never_eagain.

(** C03.  The queue length reported is the number of packets queued. *)
Theorem rbuff_queued_exact lg s evs t s' es :
  exec lg any_schedule s evs -> step lg s (LQueued t) = Some (s', es) ->
  s' = s /\ es = [EvQueued t (N.of_nat (length (contents lg (rb s))))].
Proof. exact (c03_queued lg any_schedule s evs t s' es). Qed.
Print Assumptions rbuff_queued_exact.

(** A schedule that wraps a ring of four slots, blocks a writer and a reader. *)
Definition wrap_schedule : list label :=
  [LReadB 7; LWrite 0 10; LResume 7; LWrite 0 11; LWrite 1 12; LWrite 0 13; LWrite 0 99;
   LWriteB 2 14; LRead 5; LResume 2; LRead 5; LRead 5; LWrite 0 15].

Definition benignb (lg : N) (s : sys) (l : label) : bool :=
  match l with
  | LResume t =>
      match thr s t with
      | AwakeW _ _ WakeOk => negb (acl_has (rb s) ACL_FLOWDOWN && negb (rb_free lg (rb s)))
      | AwakeW _ _ WakeOwnerDead => false
      | _ => true
      end
  | LDieWrite _ _ _ | LDieRead _ _ => false
  | _ => true
  end.

Lemma benignb_ok lg s l : benignb lg s l = true -> benign lg s l.
Proof.
  destruct l; cbn; auto; try discriminate. destruct (thr s t) as [| |a i w| | | | |]; auto.
  destruct w; auto; try discriminate. intros H [H1 H2]. rewrite H1, H2 in H. discriminate.
Qed.

Example rbuff_fifo_ex : exists s evs,
  exec 2 (benign 2) s evs /\
  written evs = [10; 11; 12; 13; 14; 15] /\ delivered evs = [10; 11; 12; 13] /\
  contents 2 (rb s) = [14; 15].
Proof.
  apply (run_witness 2 _ (benignb 2) wrap_schedule); [apply benignb_ok| |]; vm_compute; auto.
Qed.

(** C04.  In every schedule, including deaths of writers at any point,
    spurious wake-ups and time-outs, but in which no reader dies between taking
    a packet and waking the writers: a sleeping reader means the ring is empty
    and the flow neither down nor closed by the peer; a sleeping writer means
    the ring is full and the flow is not down. *)
Theorem rbuff_no_lost_wakeup_partial lg s evs t :
  exec lg no_read_death s evs ->
  (thr s t = SleepR -> contents lg (rb s) = [] /\
     acl_has (rb s) ACL_FLOWDOWN = false /\ acl_has (rb s) ACL_FLOWPEER = false) /\
  (forall a i, thr s t = SleepW a i ->
     length (contents lg (rb s)) = capacity lg /\ acl_has (rb s) ACL_FLOWDOWN = false).
Proof. exact (c04_sleep lg s evs t). Qed.
Print Assumptions rbuff_no_lost_wakeup_partial.

(** C04.  A process waiting for the ring to drain sleeps only while packets are
    queued. *)
Theorem rbuff_drain_wakeup_partial lg s evs t :
  exec lg (no_down_release lg) s evs -> thr s t = SleepF -> contents lg (rb s) <> [].
Proof. exact (c04_fini lg s evs t). Qed.
Print Assumptions rbuff_drain_wakeup_partial.

(** C04, refuted in general: a reader killed after advancing the tail and before
    the broadcast leaves a writer asleep on a ring with room. *)
Theorem rbuff_no_lost_wakeup_refuted :
  exists s evs, exec 2 any_schedule s evs /\ thr s 1%nat = SleepW ACL_RDWR 50 /\
    (length (contents 2 (rb s)) < capacity 2)%nat.
Proof.
  apply (run_witness 2 _ (fun _ _ => true) (fill 3 ++ [LWriteB 1 50; LDieRead 2 1]));
    [intros; exact I| |]; vm_compute; auto.
Qed.
Print Assumptions rbuff_no_lost_wakeup_refuted.

(** The hypotheses are met with a sleeping reader, writer and drainer. *)
Example rbuff_sleepers_ex :
  (exists s evs, exec 2 no_read_death s evs /\ thr s 4%nat = SleepR) /\
  (exists s evs, exec 2 (no_down_release 2) s evs /\
     (exists a i, thr s 1%nat = SleepW a i) /\ thr s 2%nat = SleepF).
Proof.
  split.
  - apply (run_witness 2 _ (fun _ l => match l with LDieRead _ _ => false | _ => true end)
             [LWrite 0 1; LDieWrite 1 2 1; LRead 3; LReadB 4]); [|reflexivity|reflexivity].
    intros ? []; cbn; auto; discriminate.
  - apply (run_witness 2 _ (fun _ l => match l with LDieRead _ _ | LResume _ => false | _ => true end)
             (fill 3 ++ [LWriteB 1 2; LFini 2])); [|reflexivity|].
    + intros ? []; unfold no_down_release; cbn; auto; discriminate.
    + split; [do 2 eexists|]; reflexivity.
Qed.

(** C05.  A process that dies anywhere inside a write leaves the queue as it was
    or with the one packet appended; inside a read, as it was or with the oldest
    packet removed.  For every earlier history. *)
Theorem rbuff_crash_write lg s evs t idx n s' es :
  exec lg any_schedule s evs -> step lg s (LDieWrite t idx n) = Some (s', es) ->
  contents lg (rb s') = contents lg (rb s) \/ contents lg (rb s') = contents lg (rb s) ++ [idx].
Proof. exact (c05_die_write lg any_schedule s evs t idx n s' es). Qed.
Print Assumptions rbuff_crash_write.

Theorem rbuff_crash_read lg s evs t n s' es :
  exec lg any_schedule s evs -> step lg s (LDieRead t n) = Some (s', es) ->
  contents lg (rb s') = contents lg (rb s) \/
  exists idx, contents lg (rb s) = idx :: contents lg (rb s').
Proof. exact (c05_die_read lg any_schedule s evs t n s' es). Qed.
Print Assumptions rbuff_crash_read.

(** C05.  After any history, with any deaths, reads and writes act on the queue
    as they should. *)
Theorem rbuff_works_after_crash lg s evs t idx s' es :
  exec lg any_schedule s evs ->
  (step lg s (LWrite t idx) = Some (s', es) -> acl (rb s) = ACL_RDWR ->
     (es = [EvWrite t ACL_RDWR idx OK] /\ contents lg (rb s') = contents lg (rb s) ++ [idx]) \/
     (es = [EvWrite t ACL_RDWR idx EAGAIN] /\ length (contents lg (rb s)) = capacity lg /\
      contents lg (rb s') = contents lg (rb s))) /\
  (step lg s (LRead t) = Some (s', es) ->
     (exists i, es = [EvRead t (inr i)] /\ contents lg (rb s) = i :: contents lg (rb s')) \/
     (exists r, es = [EvRead t (inl r)] /\ contents lg (rb s) = [] /\ contents lg (rb s') = [])).
Proof. exact (c05_still_works lg any_schedule s evs t idx s' es). Qed.
Print Assumptions rbuff_works_after_crash.

(** C05.  Over whole histories with deaths: some sequence of writes containing
    every reported one, in order, and some sequence of removals containing every
    reported read, in order, account for the queue exactly. *)
Theorem rbuff_crash_history lg s evs :
  exec lg (benign_or_death lg) s evs ->
  exists W R, W = R ++ contents lg (rb s) /\
    subseq (written evs) W /\ subseq (delivered evs) R.
Proof.
  intros H. destruct (exec_deaths lg s evs H) as (_ & W & R & _ & H1 & H2 & H3).
  exists W, R. auto.
Qed.
Print Assumptions rbuff_crash_history.

Example rbuff_crash_ex : exists s evs,
  exec 2 any_schedule s evs /\
  match step 2 s (LDieWrite 1 12 2) with
  | Some (s', _) => contents 2 (rb s') = [10; 11; 12]
  | None => False
  end.
Proof.
  apply (run_witness 2 _ (fun _ _ => true) [LWrite 0 10; LWrite 0 11]);
    [intros; exact I| |]; vm_compute; auto.
Qed.

(** C06, the part that holds: changing the acl never touches queued packets, and
    a write called while the flow is down, or read-only, reports that and queues
    nothing.  Missing: writers already blocked, and the peer-closed state (see
    the refutations). *)
Theorem rbuff_flow_down_partial lg s evs :
  exec lg any_schedule s evs ->
  (forall f s' es, step lg s (LSetAcl f) = Some (s', es) ->
     contents lg (rb s') = contents lg (rb s) /\ acl (rb s') = f) /\
  (forall t idx l s' es, l = LWrite t idx \/ l = LWriteB t idx ->
     step lg s l = Some (s', es) ->
     (acl_has (rb s) ACL_FLOWDOWN = true -> s' = s /\ es = [EvWrite t (acl (rb s)) idx EFLOWDOWN]) /\
     (acl_has (rb s) ACL_FLOWDOWN = false -> acl_has (rb s) ACL_RDONLY = true ->
        s' = s /\ es = [EvWrite t (acl (rb s)) idx ENOTALLOC])).
Proof. exact (c06_acl lg any_schedule s evs). Qed.
Print Assumptions rbuff_flow_down_partial.

(** C06 refuted: with the default ring of 1024 slots, holding 1023 packets, and
    a blocked writer, marking the flow down makes the writer report success and
    leaves the ring empty: all 1023 queued packets are lost. *)
Theorem rbuff_flow_down_loses_packets_refuted :
  exists s evs s' es,
    exec 10 any_schedule s evs /\ length (contents 10 (rb s)) = 1023%nat /\
    run 10 s [LSetAcl ACL_FLOWDOWN; LResume 1] = Some (s', es) /\
    es = [EvWrite 1 ACL_RDWR 5000 OK] /\ contents 10 (rb s') = [].
Proof.
  destruct (run_witness 10 any_schedule (fun _ _ => true) pre_down_schedule
    (fun s _ => length (contents 10 (rb s)) = 1023%nat /\
        match run 10 s [LSetAcl ACL_FLOWDOWN; LResume 1] with
        | Some (s', es) => es = [EvWrite 1 ACL_RDWR 5000 OK] /\ contents 10 (rb s') = []
        | None => False
        end)) as (s & evs & H & K1 & K);
    [intros; exact I|vm_compute; reflexivity|vm_compute; auto|].
  destruct (run 10 s [LSetAcl ACL_FLOWDOWN; LResume 1]) as [[s' es]|] eqn:E2; [|destruct K].
  destruct K as [K2 K3]. exists s, evs, s', es. auto.
Qed.
Print Assumptions rbuff_flow_down_loses_packets_refuted.

(** C06 refuted: once the peer has closed the flow, every write reports success
    and queues nothing. *)
Theorem rbuff_peer_closed_write_refuted lg s t idx s' es :
  acl (rb s) = ACL_FLOWPEER -> step lg s (LWrite t idx) = Some (s', es) ->
  es = [EvWrite t ACL_FLOWPEER idx OK] /\ s' = s.
Proof.
  intros Ha E. cbn [step] in E. destruct (thr s t); try discriminate. injection E as E.
  unfold do_write, write_acl_check, acl_has in E. rewrite Ha in E. cbn in E.
  injection E as <- <-. rewrite ?Ha. auto.
Qed.
Print Assumptions rbuff_peer_closed_write_refuted.

Example rbuff_peer_closed_ex : exists s evs,
  exec 10 any_schedule s evs /\ acl (rb s) = ACL_FLOWPEER /\ thr s 0%nat = Idle.
Proof.
  apply (run_witness 10 _ (fun _ _ => true) [LWrite 0 4; LSetAcl ACL_FLOWPEER]);
    [intros; exact I| |]; vm_compute; auto.
Qed.
