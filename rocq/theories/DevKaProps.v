(* Property C80: a flow with a timeout is declared down only when its peer has
   been silent for that long, is declared down then, and a program that is
   alive makes itself heard. *)
From Coq Require Import List ZArith Bool Lia.
From Verif Require Import DevKaModel DevKaSpec DevKaProofs.
Import ListNotations.
Open Scope Z_scope.

(* Down only after silence: with packets taken within L of their arrival, and
   reads returning within W of the call, nothing came in (and the flow was not
   made) between t - timeout + W and t - L.  Missing: W = 0, which fails
   (silent_peer_refuted), and any L, which fails too (unread_flow_refuted). *)
Theorem silent_peer_partial :
  forall T t0 W L l t, 0 <= W ->
    ordered t0 (l ++ [(t, Tick)]) ->
    throughout (reads_within W) (ka_init T t0) l ->
    waits_within L (fst (run (ka_init T t0) l)) t ->
    snd (step (fst (run (ka_init T t0) l)) t Tick) = Dead ->
    forall a, In a (t0 :: arrivals l) -> a < t - ms T + W \/ t - L <= a.
Proof. exact dead_sound. Qed.
Print Assumptions silent_peer_partial.

(* A blocking read that waits for two seconds on a flow with a timeout of one,
   while keepalives come in and are taken at once, and then gets its packet. *)
Definition blocked : list (Z * event) :=
  [(0, ReadCall);
   (ms 500, Arrive 0 0); (ms 500, ReadStep false);
   (ms 1000, Arrive 0 0); (ms 1000, ReadStep false);
   (ms 1500, Arrive 0 0); (ms 1500, ReadStep false);
   (ms 2000, Arrive 1 0); (ms 2000, ReadStep false)].

(* The flow is declared down at the next look, 5 ms after the packet. *)
Theorem silent_peer_refuted :
  ~ (forall T t0 l t, 0 < T ->
       ordered t0 (l ++ [(t, Tick)]) ->
       throughout (fun k u _ => waits_within 0 k u) (ka_init T t0) l ->
       snd (step (fst (run (ka_init T t0) l)) t Tick) = Dead ->
       forall a, In a (arrivals l) -> a <= t - ms T).
Proof.
  intros H. specialize (H 1000 0 blocked (ms 2005) eq_refl).
  assert (E : ms 2000 <= ms 2005 - ms 1000).
  { apply H.
    - vm_compute. repeat split; discriminate.
    - apply (throughoutb_ok _ (fun k u _ => waitsb 0 k u)); [intros k u _; apply waitsb_ok | vm_compute; reflexivity].
    - reflexivity.
    - cbn. auto. }
  vm_compute in E. apply E. reflexivity.
Qed.
Print Assumptions silent_peer_refuted.

(* A program that does not read for a second. *)
Definition unread : list (Z * event) :=
  [(ms 300, Arrive 1 0); (ms 600, Arrive 1 0); (ms 1000, Arrive 1 0)].

Theorem unread_flow_refuted :
  ~ (forall T t0 l t, 0 < T ->
       ordered t0 (l ++ [(t, Tick)]) ->
       throughout (reads_within 0) (ka_init T t0) l ->
       snd (step (fst (run (ka_init T t0) l)) t Tick) = Dead ->
       forall a, In a (arrivals l) -> a <= t - ms T).
Proof.
  intros H. specialize (H 1000 0 unread (ms 1001) eq_refl).
  assert (E : ms 1000 <= ms 1001 - ms 1000).
  { apply H.
    - vm_compute. repeat split; discriminate.
    - apply (throughoutb_ok _ (readsb 0)); [intros k u e; apply readsb_ok | vm_compute; reflexivity].
    - reflexivity.
    - cbn. auto. }
  vm_compute in E. apply E. reflexivity.
Qed.
Print Assumptions unread_flow_refuted.

(* Silence is noticed: when nothing came in since t - timeout - L, packets are
   taken within L of their arrival, and no read that returned something was
   called since t - timeout, a look at time t declares the flow down.  Missing:
   reads of packets that are held back (silence_noticed_refuted). *)
Theorem silence_noticed_partial :
  forall T t0 L l t, 0 <= L -> T <> 0 ->
    peer_down (fst (run (ka_init T t0) l)) = false ->
    t0 < t - ms T ->
    throughout (fun k u e => waits_within L k u /\ forall c, read_call k e = Some c -> c < t - ms T) (ka_init T t0) l ->
    (forall a, In a (arrivals l) -> a < t - ms T - L) ->
    snd (step (fst (run (ka_init T t0) l)) t Tick) = Dead.
Proof. exact dead_complete. Qed.
Print Assumptions silence_noticed_partial.

(* A large packet that is read a part at a time. *)
Definition by_parts : list (Z * event) :=
  [(0, Arrive 1 0); (0, ReadCall); (0, ReadStep true);
   (ms 900, ReadCall); (ms 900, ReadStep true);
   (ms 1800, ReadCall); (ms 1800, ReadStep true);
   (ms 2700, ReadCall); (ms 2700, ReadStep true)].

Theorem silence_noticed_refuted :
  ~ (forall T t0 L l t, 0 <= L -> T <> 0 ->
       peer_down (fst (run (ka_init T t0) l)) = false ->
       t0 < t - ms T ->
       throughout (fun k u _ => waits_within L k u) (ka_init T t0) l ->
       (forall a, In a (arrivals l) -> a < t - ms T - L) ->
       snd (step (fst (run (ka_init T t0) l)) t Tick) = Dead).
Proof.
  intros H. specialize (H 1000 (-1) 1 by_parts (ms 3000)).
  assert (E : snd (step (fst (run (ka_init 1000 (-1)) by_parts)) (ms 3000) Tick) = Dead).
  { apply H; try reflexivity; try discriminate.
    - apply (throughoutb_ok _ (fun k u _ => waitsb 1 k u)); [intros k u _; apply waitsb_ok | vm_compute; reflexivity].
    - cbn. intros a [<- | []]. vm_compute. reflexivity. }
  vm_compute in E. discriminate.
Qed.
Print Assumptions silence_noticed_refuted.

(* A flow that is not down is heard from: a packet was handed to the layer
   below (or the flow made) no more than a quarter of the timeout before the
   last look at it, whatever else happened. *)
Theorem keepalive_interval :
  forall T t0 l, 0 < T ->
    ordered t0 l ->
    (forall t e, In (t, e) l -> e <> Write false) ->
    peer_down (fst (run (ka_init T t0) l)) = false ->
    exists s, In s (t0 :: sent_times (ka_init T t0) l) /\ last_tick t0 l - ms T / 4 <= s.
Proof.
  intros T t0 l HT Ho Hw Hp.
  assert (G : forall l k now tk, timeo k = T -> ordered now l ->
    (forall t e, In (t, e) l -> e <> Write false) ->
    peer_down (fst (run k l)) = false -> tk <= now -> tk - T * 250000 <= snd_act k -> snd_act k <= now ->
    exists s, In s (snd_act k :: sent_times k l) /\ last_tick tk l - T * 250000 <= s).
  { clear - HT. induction l as [| [t e] l IH]; intros k now tk HTk Ho Hw Hp Hle Hs Hsn.
    - exists (snd_act k). split; [left; reflexivity | exact Hs].
    - rewrite run_cons in Hp. cbn in Ho. destruct Ho as [Ht Ho].
      assert (Hnd : peer_down (fst (step k t e)) = false /\ snd (step k t e) <> Dead).
      { assert (M : forall l k, peer_down (fst (run k l)) = false -> peer_down k = false).
        { clear. induction l as [| [u f] l IH]; intros k H; [exact H |].
          rewrite run_cons in H. apply IH in H. revert H. clear.
          destruct f; cbn; auto.
          - unfold keepalive.
            destruct (_ || _) eqn:E; [auto |].
            destruct (timeo k * MILLION <? u - rcv_act k); [discriminate |].
            destruct (_ <? u - snd_act k); auto.
          - unfold read_step. destruct (rd k); auto. destruct (frq k); auto.
            destruct (rxq k) as [| [[| n] p] q]; auto.
          - unfold filter_step. destruct (rxq k) as [| [n p] q]; auto. }
        apply M in Hp. split; [exact Hp |].
        intros E. pose proof (step_dead _ _ _ E); subst e. revert Hp E. cbn. unfold keepalive.
        destruct (_ || _); [discriminate |].
        destruct (timeo k * MILLION <? t - rcv_act k); [discriminate |].
        destruct (_ <? t - snd_act k); discriminate. }
      destruct Hnd as [Hp1 Hnd].
      pose proof (step_peer k t e Hnd) as Hpk. rewrite Hp1 in Hpk. symmetry in Hpk.
      assert (HTk' : timeo (fst (step k t e)) = T) by (rewrite step_timeo; exact HTk).
      assert (Hw' : forall t0 e0, In (t0, e0) l -> e0 <> Write false)
        by (intros t1 e1 Hi; apply (Hw t1 e1); right; exact Hi).
      assert (Hcase : (snd_act (fst (step k t e)) = snd_act k /\ sent_times k ((t, e) :: l) = sent_times (fst (step k t e)) l)
                   \/ (snd_act (fst (step k t e)) = t /\ sent_times k ((t, e) :: l) = t :: sent_times (fst (step k t e)) l)).
      { cbn [sent_times]. destruct e as [| ok | m u | | m | |].
        - cbn. unfold keepalive. destruct (_ || _); [left; split; reflexivity |].
          destruct (timeo k * MILLION <? t - rcv_act k); [left; split; reflexivity |].
          destruct (_ <? t - snd_act k); [right | left]; split; reflexivity.
        - destruct ok; [right; split; reflexivity |].
          exfalso. apply (Hw t (Write false)); [left; reflexivity | reflexivity].
        - left; split; reflexivity.
        - left; split; reflexivity.
        - left; split; [| reflexivity]. cbn. unfold read_step. destruct (rd k); auto. destruct (frq k); auto.
          destruct (rxq k) as [| [[| n] p] q]; auto.
        - left; split; reflexivity.
        - left; split; [| reflexivity]. cbn. unfold filter_step. destruct (rxq k) as [| [n p] q]; auto. }
      assert (Htk : match e with Tick => t | _ => tk end - T * 250000 <= snd_act (fst (step k t e))).
      { destruct e; try (destruct Hcase as [[-> _] | [-> _]]; lia).
        pose proof (tick_sends k t ltac:(lia) ltac:(lia) Hpk Hnd) as X. lia. }
      destruct (IH (fst (step k t e)) t (match e with Tick => t | _ => tk end)) as (s & Hin & Hs'); auto.
      { destruct e; lia. }
      { destruct Hcase as [[-> _] | [-> _]]; lia. }
      exists s. split; [| exact Hs'].
      destruct Hcase as [[E1 E2] | [E1 E2]]; rewrite E2; rewrite E1 in Hin.
      + exact Hin.
      + right; exact Hin. }
  replace (ms T / 4) with (T * 250000).
  - apply (G l (ka_init T t0) t0 t0); auto; cbn; lia.
  - unfold ms. replace (T * 1000000) with (T * 250000 * 4) by lia. rewrite Z.div_mul; lia.
Qed.
Print Assumptions keepalive_interval.

(* Two live programs, looking at their flows every d, taking packets within L
   of their arrival and with reads that return within W, over a network that
   delivers everything within D: neither ever declares the flow down, if a
   quarter of the timeout and these delays fit in the timeout. *)
Theorem healthy_flow_stays_up_partial :
  forall T d D L W, 0 < T -> 0 <= d -> 0 <= D -> 0 <= L -> 0 <= W ->
    ms T / 4 + d + D + L + W <= ms T ->
    forall l now, healthy T d D L W l now ->
      peer_down (endA l) = false /\ peer_down (endB l) = false /\
      forall t e, now <= t -> timely d D L W l t e -> snd (lstep l t e) <> Dead.
Proof.
  intros T d D L W HT Hd HD HL HW HB l now H.
  assert (HB' : T * 250000 + d + D + L + W <= T * 1000000).
  { unfold ms in HB. replace (T * 1000000 / 4) with (T * 250000) in HB; [lia |].
    replace (T * 1000000) with (T * 250000 * 4) by lia. rewrite Z.div_mul; lia. }
  pose proof (both_reach T d D L W HT Hd HD HL HW HB' l now H) as B.
  split; [apply B | split; [apply B |]].
  intros t e Ht Htim. apply (both_step T d D L W HT Hd HD HL HW HB' l now t e); auto.
Qed.
Print Assumptions healthy_flow_stays_up_partial.

(* Non-vacuity: a history of two live programs in which both send keepalives,
   one is taken by the receiver thread and the other by a blocking read. *)
Definition live_history : list (Z * levent) :=
  [(ms 200, At SideA Tick 0); (ms 200, At SideB Tick 0);
   (ms 300, At SideA Tick 0); (ms 320, Deliver SideB); (ms 322, At SideB Filter 0);
   (ms 400, At SideB Tick 0); (ms 410, At SideA ReadCall 0); (ms 420, Deliver SideA);
   (ms 421, At SideA (ReadStep false) 0); (ms 440, At SideB (Write true) 1);
   (ms 445, Deliver SideA); (ms 446, At SideA (ReadStep false) 0)].

Example live_reachable :
  exists l, healthy 1000 (ms 300) (ms 50) (ms 5) (ms 100) l (ms 446) /\
    lrun (Link (ka_init 1000 0) (ka_init 1000 0) [] [] 0 0) live_history =
      (l, [Quiet; Quiet; Sent; Quiet; Quiet; Sent; Quiet; Quiet; Quiet; Sent; Quiet; Quiet]) /\
    rcv_act (endA l) = ms 410 /\ rcv_act (endB l) = ms 322.
Proof.
  exists (fst (lrun (Link (ka_init 1000 0) (ka_init 1000 0) [] [] 0 0) live_history)).
  split; [| split; [| split]; vm_compute; reflexivity].
  apply (lrun_healthy 1000 (ms 300) (ms 50) (ms 5) (ms 100) live_history _ 0).
  - apply (h_start 1000 (ms 300) (ms 50) (ms 5) (ms 100) 0 0). vm_compute. discriminate.
  - vm_compute. reflexivity.
Qed.

(* and the bounds of that history fit in its timeout. *)
Example live_budget : ms 1000 / 4 + ms 300 + ms 50 + ms 5 + ms 100 <= ms 1000.
Proof. vm_compute. discriminate. Qed.

(* A peer that fell silent is declared down (the hypotheses of both
   one-ended theorems, met by one history). *)
Definition fell_silent : list (Z * event) :=
  [(ms 100, Arrive 1 0); (ms 101, ReadCall); (ms 101, ReadStep false); (ms 300, Tick);
   (ms 600, Write true)].

Example fell_silent_dead :
  snd (step (fst (run (ka_init 1000 0) fell_silent)) (ms 1200) Tick) = Dead /\
  throughout (reads_within 0) (ka_init 1000 0) fell_silent /\
  throughout (fun k u e => waits_within (ms 1) k u /\ forall c, read_call k e = Some c -> c < ms 1200 - ms 1000)
    (ka_init 1000 0) fell_silent /\
  sent_times (ka_init 1000 0) fell_silent = [ms 300; ms 600].
Proof.
  split; [vm_compute; reflexivity |]. split; [| split; [| vm_compute; reflexivity]].
  - apply (throughoutb_ok _ (readsb 0)); [intros k u e; apply readsb_ok | vm_compute; reflexivity].
  - apply (throughoutb_ok _ (fun k u e => waitsb (ms 1) k u &&
      match read_call k e with Some c => c <? ms 1200 - ms 1000 | None => true end)).
    + intros k u e H. apply andb_prop in H as [H1 H2]. split; [apply waitsb_ok; exact H1 |].
      intros c Hc. rewrite Hc in H2. apply Z.ltb_lt. exact H2.
    + vm_compute. reflexivity.
Qed.
