(** C30: the congestion avoidance of the unicast IPCP. *)
From Coq Require Import List NArith ZArith Bool Lia ZifyN ZifyBool.
From Verif Require Import MbEcnModel MbEcnSpec MbEcnProofs.
Import ListNotations.
Open Scope N_scope.

(** Whatever marks are received, the level that is reported to the sender is at
    most 8191, so it fits its 16-bit field, and the averaging does not wrap. *)
Theorem mbecn_level_fits : forall m now es c ecn c' w e,
  Forall (marks_ok m) es -> ecn < 256 ->
  run (ctx_create now) es = Some c -> step c (Rcv ecn) = Some (c', (w, Some e)) ->
  e <= 8191 /\
  e = (if ecn =? 0 then rx_ece c / 4 else rx_ece c - rx_ece c / 32 + ecn).
Proof.
  intros m now es c ecn c' w e F M R S.
  assert (L : lvl m c).
  { eapply lvl_run; [|exact F|exact R]. split; cbn; lia. }
  destruct (lvl_step _ _ _ _ _ L (M : marks_ok m (Rcv ecn)) S) as [[L' _] E].
  rewrite (E e eq_refl). split; [exact L'|].
  rewrite <- (E e eq_refl).
  cbn [step] in S. unfold update_rcv in S.
  destruct (N.lor (rx_ece c) ecn =? 0); [discriminate|].
  destruct (N.eqb_spec ecn 0) as [->|Ne]; [|destruct (N.eqb_spec (rx_ece c) 0) as [Z|Z]].
  - assert (A : Some e = Some (rx_ece c / 4)) by congruence. congruence.
  - assert (A : Some e = Some ecn) by congruence. rewrite Z. cbn [N.div]. injection A as ->. reflexivity.
  - assert (A : Some e = Some (w16 (w16 (rx_ece c - rx_ece c / 2 ^ CA_SHFT) + ecn))) by congruence.
    destruct (rcv_level (rx_ece c) ecn (proj1 L) M) as [B _]. rewrite B in A. congruence.
Qed.
Print Assumptions mbecn_level_fits.

Example mbecn_level_nonvacuous :
  option_map rx_ece (run (ctx_create 0) (repeat (Rcv 255) 400)) = Some 8160.
Proof. vm_compute. reflexivity. Qed.

(** A reported level of at most 8191 shrinks the window without underflow and
    leaves at least one byte of it. *)
Theorem mbecn_decrease_no_underflow_partial : forall wbl ece wbc inc,
  1 <= wbl -> wbl < 2 ^ 64 -> ece <> 0 -> ece <= 8191 ->
  1 <= adjust true wbl wbc ece inc <= wbl.
Proof. exact decrease_range. Qed.
Print Assumptions mbecn_decrease_no_underflow_partial.

(** In every paced history with reported levels of at most 8191 (the largest that
    [mbecn_level_fits] lets a correct peer report), nothing is undefined, the
    increment stays between 2^7 and 2^50 and in step with the length of a slot,
    the window does not overflow, and the waiting time is never negative.
    Missing from the full claim: histories that are not paced, larger levels, and
    a lower bound on the window (see below). *)
Theorem mbecn_increment_in_range_partial : forall now es,
  now < 2 ^ 56 -> Forall (marks_ok 8191) es -> paced (now + 2048) es ->
  exists c, run (ctx_create now) es = Some c /\
    2 ^ 7 <= tx_inc c <= 2 ^ 50 /\ tx_inc c * 256 = 2 ^ tx_mul c /\ tx_wbl c < 2 ^ 63.
Proof.
  intros now es Hn F P.
  destruct (inv_run 8191 ltac:(lia) es (ctx_create now) (now + 2048)) as (c & t & R & (last & ll & I & _) & _); auto.
  - exists now, 0. split; [apply inv_create; exact Hn|lia].
  - split; cbn; lia.
  - exists c. split; [exact R|]. destruct I as [A B _ _ _ C _ _].
    assert (E : tx_inc c * 256 = 2 ^ tx_mul c).
    { rewrite B. change 256 with (2 ^ 8). rewrite <- N.pow_add_r. f_equal. lia. }
    pose proof (pow_le _ A). split; [|split; [exact E|lia]]. lia.
Qed.
Print Assumptions mbecn_increment_in_range_partial.

(** The same, for the waiting time of each packet: the sender is told to wait if
    and only if it used more than its window, and then until the end of the slot. *)
Theorem mbecn_wait_until_slot_end_partial : forall now es t len c,
  now < 2 ^ 56 -> Forall (marks_ok 8191) es -> paced (now + 2048) (es ++ [Snd t len]) ->
  run (ctx_create now) es = Some c ->
  exists c' w, update_snd c t len = Some (c', w) /\
    ((0 < w)%Z <-> tx_wbl c' < tx_wbc c') /\ (0 <= w)%Z /\
    ((0 < w)%Z -> (Z.of_N t + w = Z.of_N ((tx_slot c' + 1) * 2 ^ tx_mul c'))%Z).
Proof.
  intros now es t len c Hn F P R.
  assert (G : forall es c0 t0, inv' c0 t0 -> lvl 8191 c0 -> Forall (marks_ok 8191) es ->
    paced t0 (es ++ [Snd t len]) -> run c0 es = Some c ->
    exists c' w, update_snd c t len = Some (c', w) /\ wait_ok c' t w).
  { clear. induction es as [|e es IH]; intros c0 t0 I L F P R.
    - cbn in R. injection R as ->. cbn [app paced] in P. destruct P as (P1 & P2 & P3 & _).
      destruct I as (last & ll & I & T). destruct L as [_ L].
      destruct (snd_ok c last ll t len I) as (c' & w & E & _ & W & _); try lia.
      exists c', w. split; assumption.
    - inversion F; subst. cbn [run] in R. rewrite <- app_comm_cons in P.
      destruct (inv_step 8191 c0 t0 e _ ltac:(lia) I L H1 P) as (c1 & o & t1 & S & I1 & P1 & _ & _).
      rewrite S in R. cbn [bind] in R.
      destruct (lvl_step _ _ _ _ _ L H1 S) as [L' _]. exact (IH c1 t1 I1 L' H2 P1 R). }
  destruct (G es (ctx_create now) (now + 2048)) as (c' & w & E & W1 & W2 & W3); auto.
  - exists now, 0. split; [apply inv_create; exact Hn|lia].
  - split; cbn; lia.
  - exists c', w. split; [exact E|]. split; [exact W2|]. split; [exact W3|].
    intros X. destruct (N.ltb_spec (tx_wbl c') (tx_wbc c')); lia.
Qed.
Print Assumptions mbecn_wait_until_slot_end_partial.

(** As long as the remote side reports no congestion the window is at least one
    increment, so never zero. *)
Theorem mbecn_window_nonzero_partial : forall now es,
  now < 2 ^ 56 -> Forall (marks_ok 0) es -> paced (now + 2048) es ->
  exists c, run (ctx_create now) es = Some c /\ 2 ^ 7 <= tx_inc c <= tx_wbl c.
Proof.
  intros now es Hn F P.
  destruct (inv_run 0 ltac:(lia) es (ctx_create now) (now + 2048)) as (c & t & R & (last & ll & I & _) & N); auto.
  - exists now, 0. split; [apply inv_create; exact Hn|lia].
  - split; cbn; lia.
  - exists c. split; [exact R|]. specialize (N eq_refl ltac:(cbn; lia)).
    split; [|exact N]. destruct I as [A B _ _ _ _ _ _]. rewrite B. apply N.pow_le_mono_r; lia.
Qed.
Print Assumptions mbecn_window_nonzero_partial.

Lemma pacedb_ok : forall es t, pacedb t es = true -> paced t es.
Proof.
  induction es as [|[now len|e|e] es IH]; intros t H; cbn [pacedb paced] in *; auto.
  apply andb_prop in H as [H H4]. apply andb_prop in H as [H H3]. apply andb_prop in H as [H1 H2].
  repeat split; try lia. apply IH. exact H4.
Qed.

(** A paced history with congestion in which the slot grows and shrinks. *)
Definition hist1 : list ev :=
  burst 100 (2 ^ 30) 30000 1000 ++ [Rcv 7; Ece 500] ++ burst 40 (2 ^ 30 + 2 ^ 25) 1000000 1000 ++
  [Ece 0] ++ burst 100 (2 ^ 30 + 2 ^ 28) 20000000 1000.
Example mbecn_paced_nonvacuous :
  pacedb (2 ^ 29 + 2048) hist1 = true /\
  option_map (fun c => (tx_inc c, tx_mul c, tx_wbl c)) (run (ctx_create (2 ^ 29)) hist1)
    = Some (2 ^ 21, 29, 2123152).
Proof. vm_compute. auto. Qed.

(** The claims that do not hold without the restrictions. *)

(** A reported level above 8191, which the wire format allows, underflows the
    window. *)
Theorem mbecn_window_no_underflow_refuted : exists now es c,
  paced (now + 2048) es /\ Forall (marks_ok 65535) es /\
  run (ctx_create now) es = Some c /\ 2 ^ 63 < tx_wbl c.
Proof.
  exists 0, (Ece 65535 :: burst 8 (2 ^ 20) (2 ^ 22) 1000). eexists. split; [|split; [|split]].
  - apply pacedb_ok. vm_compute. reflexivity.
  - repeat constructor; cbn; lia.
  - vm_compute. reflexivity.
  - vm_compute. reflexivity.
Qed.
Print Assumptions mbecn_window_no_underflow_refuted.

(** A well-behaved peer that keeps reporting heavy congestion can drive the window
    to zero: it shrinks to one byte, and halving the slot then halves that byte. *)
Theorem mbecn_window_never_zero_refuted : exists now es c,
  paced (now + 2048) es /\ Forall (marks_ok 8191) es /\
  run (ctx_create now) es = Some c /\ tx_wbl c = 0.
Proof.
  exists 0, (burst 8 (2 ^ 20) 5000 100 ++ [Ece 8191] ++ burst 1 (2 ^ 24) 5000 100 ++
             burst 8 (2 ^ 24 + 2 ^ 20) 5000 100 ++ [Ece 8191] ++ burst 1 (2 * 2 ^ 24) 5000 100 ++
             burst 66 (2 * 2 ^ 24 + 2 ^ 20) 5000 100 ++ [Ece 8191] ++ burst 1 (3 * 2 ^ 24) 5000 100).
  eexists. split; [|split; [|split]].
  - apply pacedb_ok. vm_compute. reflexivity.
  - repeat constructor; cbn; lia.
  - vm_compute. reflexivity.
  - vm_compute. reflexivity.
Qed.
Print Assumptions mbecn_window_never_zero_refuted.

(** The increment becomes zero if the packets come fast enough: here 66 packets
    in every slot, however short. *)
Fixpoint fast (k : nat) (t : N) : list ev :=
  match k with
  | O => []
  | S k => burst 66 t 0 100 ++ fast k (t + 2 ^ 25)
  end.
Theorem mbecn_increment_never_zero_refuted : exists now es c,
  Forall (marks_ok 0) es /\ run (ctx_create now) es = Some c /\ tx_inc c = 0.
Proof.
  exists 0, (fast 19 0).
  eexists. split; [|split].
  - repeat constructor.
  - vm_compute. reflexivity.
  - vm_compute. reflexivity.
Qed.
Print Assumptions mbecn_increment_never_zero_refuted.

(** A sender sleeps for at most one second at a time. *)
Theorem mbecn_sleep_at_most_1s : forall wait s ns, wnd_wait wait = Some (s, ns) ->
  (0 < wait /\ 0 < s * 1000000000 + ns <= 1000000000 /\ s * 1000000000 + ns <= wait)%Z.
Proof.
  intros wait s ns. unfold wnd_wait, BILLION.
  destruct (Z.ltb_spec 0 wait); [|discriminate].
  destruct (Z.ltb_spec (Z.of_N 1000000000) wait); intros E; injection E as <- <-; lia.
Qed.
Print Assumptions mbecn_sleep_at_most_1s.

(** A wait of exactly one second is passed to nanosleep as 10^9 nanoseconds, which
    it rejects, so the sender does not sleep at all. *)
Theorem mbecn_wait_sleeps_refuted : exists wait ts, (0 < wait)%Z /\ wnd_wait wait = Some ts /\
  nanosleep_valid ts = false.
Proof. exists 1000000000%Z, (0, 1000000000)%Z. repeat split; reflexivity. Qed.
Print Assumptions mbecn_wait_sleeps_refuted.
Theorem mbecn_wait_sleeps_partial : forall wait ts, wait <> 1000000000%Z -> wnd_wait wait = Some ts ->
  nanosleep_valid ts = true.
Proof.
  intros wait ts N. unfold wnd_wait, BILLION.
  destruct (Z.ltb_spec 0 wait); [|discriminate].
  destruct (Z.ltb_spec (Z.of_N 1000000000) wait); intros E; injection E as <-; [reflexivity|].
  unfold nanosleep_valid. cbn [fst snd]. lia.
Qed.
Print Assumptions mbecn_wait_sleeps_partial.
