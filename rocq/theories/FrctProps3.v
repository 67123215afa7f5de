(* C20: the first packet of a flow.  C21: losses on a flow without
   retransmission.  C65: a flow in one direction. *)
From Coq Require Import NArith ZArith List Bool Lia ZifyBool ZifyNat.
From Verif Require Import SeqNoModel SeqNoProofs FrctModel FrctSpec FrctProofs FrctProofs2 FrctRun FrctProps2.
Import ListNotations.
Open Scope Z_scope.

(* ==== C20 ==== *)

(* The packets that arrive at an end, with their times. *)
Definition receive_all (f : frcti) (l : list (Z * pci)) : frcti :=
  fold_left (fun f x => let '(f', _, _) := frcti_rcv f (fst x) (snd x) [] in f') l f.

(* C20, the part that holds: the first packet written at one end of a new
   flow is accepted at the other end, and is the first to be read there, if
   nothing arrived before it; whenever it is written and arrives, whatever
   its sequence number, on reliable and other flows. *)
Theorem frct_first_packet_partial : forall a r mpl b t0 t1 now1 rnd f1 h now d,
  0 <= a -> 0 <= r -> 0 <= mpl -> t0 <= now -> t1 <= now1 ->
  frcti_snd (frcti_create a r mpl b t1) now1 rnd = Ok (f1, h) ->
  exists f out, frcti_rcv (frcti_create a r mpl b t0) now h d = (f, Queued, out) /\
    snd (frcti_queued_pdu f) = Some d.
Proof.
  intros a r mpl b t0 t1 now1 rnd f1 h now d Ha Hr Hm L0 L1 E.
  assert (D : forall k, (k * BILLION) / BILLION = k) by (intros; apply Z.div_mul; discriminate).
  set (f0 := frcti_create a r mpl b t0).
  assert (Ia : rcv_inactive f0 now = true).
  { unfold rcv_inactive, f0, frcti_create. cbn [rcv_cr act inact].
    generalize ((2 * (mpl * BILLION) + a * BILLION + r * BILLION) / BILLION + 1). intros k.
    unfold sec. rewrite D. pose proof (Z.div_le_mono t0 now BILLION ltac:(reflexivity) L0). lia. }
  assert (Hh : p_data h = true /\ p_drf h = true /\ p_rdvs h = false /\ 0 <= p_seqno h < two32).
  { unfold frcti_snd in E. destruct (snd_inactive (frcti_create a r mpl b t1) now1 && _); [discriminate|].
    cbv zeta in E. injection E as _ <-. cbn [p_data p_drf p_rdvs p_seqno]. do 3 (split; [reflexivity|]).
    destruct (snd_inactive (frcti_create a r mpl b t1) now1); cbn.
    - apply Z.mod_pos_bound. reflexivity.
    - unfold two32. lia. }
  destruct Hh as (H1 & H2 & H3 & H4).
  assert (W : w32 (p_seqno h) = p_seqno h) by (apply Z.mod_small; exact H4).
  unfold frcti_rcv. rewrite Ia, H2. set (f2 := with_rcv f0 _).
  unfold rcv_active. cbv zeta. rewrite H3. fold (prepared f2 now h).
  destruct (prepared_rcv f2 now h) as [P1 P2].
  assert (B1 : before (p_seqno h) (p_seqno h) = false).
  { rewrite <- W. rewrite before_w32; lia. }
  assert (B2 : before (p_seqno h) (w32 (p_seqno h + RQ_SIZE)) = true).
  { rewrite <- W at 1. rewrite before_w32; unfold RQ_SIZE; lia. }
  assert (Q : rq_get (rq f2) (slot (p_seqno h)) = None).
  { unfold f2, f0, frcti_create, rq_get. cbn [rq with_rcv]. apply nth_repeat. }
  unfold rcv_data. rewrite H1, P1, P2. cbn [negb lwe rwe f_rtx cr_act cr_wnd rcv_cr with_rcv f2].
  rewrite B1. fold f0. replace (f_rtx (rcv_cr f0)) with b by reflexivity.
  assert (G : forall q, length q = Z.to_nat RQ_SIZE ->
              rq_get (rq_set q (slot (p_seqno h)) (Some d)) (slot (p_seqno h)) = Some d).
  { intros q Hq. apply rq_get_set_same. rewrite Hq. apply slot_lt. }
  destruct b.
  - rewrite B2, Q. cbn [negb]. eexists. eexists. split; [reflexivity|].
    unfold frcti_queued_pdu. cbn [rcv_cr with_rq rq]. rewrite P1.
    cbn [lwe cr_act cr_wnd rcv_cr with_rcv f2]. rewrite G; [reflexivity|].
    apply repeat_length.
  - eexists. eexists. split; [reflexivity|].
    unfold frcti_queued_pdu. cbn [rcv_cr with_rq with_rcv rq lwe cr_wnd]. rewrite G; [reflexivity|].
    apply repeat_length.
Qed.

(* Once a packet without data, such as a delayed acknowledgement, has
   arrived at an end that has not received data yet, that end accepts
   nothing, whatever arrives, for as long as the pauses between arrivals do
   not exceed the receive timer. *)
Inductive busy_history (x0 : ep) : ep -> Prop :=
| bh_start : busy_history x0 x0
| bh_step : forall x now e x' out, busy_history x0 x ->
    (forall fl, e = Recv fl -> rcv_inactive (fr x) now = false) ->
    ep_step x now e = Ok (x', out) -> busy_history x0 x'.

Lemma deaf_step : forall x now e x' out,
  (forall fl, e = Recv fl -> rcv_inactive (fr x) now = false) ->
  f_rtx (rcv_cr (fr x)) = true -> lwe (rcv_cr (fr x)) = rwe (rcv_cr (fr x)) ->
  (forall k, rq_get (rq (fr x)) k = None) ->
  ep_step x now e = Ok (x', out) ->
  f_rtx (rcv_cr (fr x')) = true /\ lwe (rcv_cr (fr x')) = rwe (rcv_cr (fr x')) /\
  (forall k, rq_get (rq (fr x')) k = None) /\ got x' = got x.
Proof.
  intros x now e x' out Bu Hr Hw Hq Es.
  destruct (frct_queue_kept x now e x' out Hr Es) as (K1 & _ & _ & K4).
  split; [exact K1|].
  assert (Rw : forall f, lwe (rcv_cr f) = lwe (rcv_cr (fr x)) -> rwe (rcv_cr f) = rwe (rcv_cr (fr x)) ->
             lwe (rcv_cr f) = rwe (rcv_cr f)) by congruence.
  destruct e as [d rnd | | fl | | n full wr | | | ]; cbn [ep_step] in Es.
  - destruct (frcti_snd (fr x) now rnd) as [[f h]|] eqn:E; [|discriminate].
    injection Es as <- <-. cbn [fr got] in *. split.
    + unfold frcti_snd in E. destruct (snd_inactive (fr x) now && _); [discriminate|].
      cbv zeta in E. injection E as <- _. cbn.
      destruct (f_rtx (snd_cr (fr x)) && ((sec now - sec (act (rcv_cr (fr x)))) * BILLION <=? a (fr x)));
        destruct (f_rtx (snd_cr (fr x)) && negb (probe (fr x))); exact Hw.
    + split; [|reflexivity]. intros k. destruct (rq_get (rq f) k) as [d0|] eqn:G; [|reflexivity].
      destruct (K4 k d0 G) as [X | (fl & X & _)]; [congruence | discriminate].
  - destruct (frcti_queued_pdu (fr x)) as [f o] eqn:E. unfold frcti_queued_pdu in E.
    rewrite Hq in E. injection E as <- <-. injection Es as <- <-. cbn. auto.
  - destruct (frcti_rcv (fr x) now (f_hdr fl) (f_body fl)) as [[f t] ps] eqn:E.
    injection Es as <- <-. cbn [fr got] in *.
    unfold frcti_rcv in E. rewrite (Bu fl eq_refl) in E. unfold rcv_active in E. cbv zeta in E.
    destruct (p_rdvs (f_hdr fl)).
    { injection E as <- _ _. cbn. auto. }
    fold (prepared (fr x) now (f_hdr fl)) in E. destruct (prepared_rcv (fr x) now (f_hdr fl)) as [P1 P2].
    destruct (rcv_data_queued _ _ _ _ _ _ _ E) as [(Q1 & Q2 & Q3 & _) | (_ & Q2 & _ & Q3 & Q4 & _)].
    + rewrite P1. exact Hr.
    + exfalso. rewrite P1 in Q2, Q3. cbn in Q2, Q3. rewrite Hw in Q2. congruence.
    + rewrite P1 in Q3, Q4. rewrite P2 in Q2. cbn in Q3, Q4. split; [apply Rw; assumption|].
      split; [|reflexivity]. rewrite Q2. exact Hq.
  - destruct (send_frct_pkt (fr x) now) as [f ps] eqn:E. injection Es as <- <-. cbn [fr got].
    unfold send_frct_pkt in E.
    destruct (negb (after (lwe (rcv_cr (fr x))) (seqno (rcv_cr (fr x))))); [injection E as <- _; auto|].
    destruct (now - act (rcv_cr (fr x)) >? a (fr x)); [injection E as <- _; auto|].
    destruct (now - act (snd_cr (fr x)) <? TICTIME); injection E as <- _; cbn; auto.
  - destruct (nth_error (rxms x) n) as [e|] eqn:En; [|injection Es as <- <-; auto].
    destruct (rxm_fire (fr x) now e full wr) as [ | | f | f p] eqn:E; injection Es as <- <-; cbn [fr got]; auto.
    + assert (rcv_cr f = rcv_cr (fr x) /\ rq f = rq (fr x)) as [-> ->]; [|auto].
      unfold rxm_fire in E. destruct (before (x_seqno e) (lwe (snd_cr (fr x)))); [discriminate|].
      destruct (now - x_t0 e >? r (fr x)); [discriminate|].
      destruct (x_seqno e =? rttseq (fr x));
        match goal with E : (if ?b then Down else _) = _ |- _ => destruct b end; try discriminate;
        destruct full; try (destruct wr; discriminate); injection E as <-; split; reflexivity.
    + assert (rcv_cr f = rcv_cr (fr x) /\ rq f = rq (fr x)) as [-> ->]; [|auto].
      unfold rxm_fire in E. destruct (before (x_seqno e) (lwe (snd_cr (fr x)))); [discriminate|].
      destruct (now - x_t0 e >? r (fr x)); [discriminate|].
      destruct (x_seqno e =? rttseq (fr x));
        match goal with E : (if ?b then Down else _) = _ |- _ => destruct b end; try discriminate;
        destruct full; try discriminate; destruct wr; try discriminate; injection E as <- _; split; reflexivity.
  - destruct (frcti_is_window_open (fr x) now) as [[f b] ps] eqn:E. injection Es as <- <-. cbn [fr got].
    assert (rcv_cr f = rcv_cr (fr x) /\ rq f = rq (fr x)) as [-> ->]; [|auto].
    unfold frcti_is_window_open in E.
    destruct (negb (f_rescntl (snd_cr (fr x))) || before (seqno (snd_cr (fr x))) (rwe (snd_cr (fr x))));
      [injection E as <- _ _; auto|].
    destruct (open (fr x)); [injection E as <- _ _; auto|].
    destruct (now - t_wnd (fr x) >? MAX_RDV); [injection E as <- _ _; auto|].
    destruct (now - t_rdvs (fr x) >? DELT_RDV); injection E as <- _ _; auto.
  - injection Es as <- <-. cbn [fr got].
    unfold window_before_wait. destruct (open (fr x)); cbn; auto.
  - destruct (window_timeout (fr x) now) as [[f b] ps] eqn:E. injection Es as <- <-. cbn [fr got].
    assert (rcv_cr f = rcv_cr (fr x) /\ rq f = rq (fr x)) as [-> ->]; [|auto].
    unfold window_timeout in E.
    destruct (now - t_wnd (fr x) >? MAX_RDV); [injection E as <- _ _; auto|].
    destruct (now - t_rdvs (fr x) >? DELT_RDV); injection E as <- _ _; auto.
Qed.

Theorem frct_deaf_after_early_control : forall a r mpl t0 now c f t out x,
  0 <= a -> 0 <= r -> 0 <= mpl ->
  p_data c = false -> p_drf c = false ->
  frcti_rcv (frcti_create a r mpl true t0) now c [] = (f, t, out) ->
  busy_history (Ep f [] [] []) x -> got x = [] /\ queued (fr x) = [].
Proof.
  intros a r mpl t0 now c f t out x Ha Hr Hm Hd Hf E H.
  assert (I : f_rtx (rcv_cr f) = true /\ lwe (rcv_cr f) = rwe (rcv_cr f) /\ (forall k, rq_get (rq f) k = None)).
  { set (f0 := frcti_create a r mpl true t0) in *.
    assert (Q0 : forall k, rq_get (rq f0) k = None) by (intros k; apply nth_repeat).
    assert (R : rcv_active f0 now c [] = (f, t, out)).
    { unfold frcti_rcv in E. rewrite Hd, Hf in E. destruct (rcv_inactive f0 now); exact E. }
    unfold rcv_active in R. cbv zeta in R. destruct (p_rdvs c).
    - injection R as <- _ _. cbn. auto.
    - fold (prepared f0 now c) in R. destruct (prepared_rcv f0 now c) as [P1 P2].
      destruct (rcv_data_queued _ _ _ _ _ _ _ R) as [(Q1 & Q2 & Q3 & _) | (_ & Q2 & Q5 & Q3 & Q4 & _)].
      + rewrite P1. reflexivity.
      + exfalso. rewrite P1 in Q2, Q3. cbn in Q2, Q3. congruence.
      + rewrite P1 in Q3, Q4. rewrite P2 in Q2. cbn in Q3, Q4. rewrite Q2, Q3, Q4. auto. }
  assert (J : f_rtx (rcv_cr (fr x)) = true /\ lwe (rcv_cr (fr x)) = rwe (rcv_cr (fr x)) /\
              (forall k, rq_get (rq (fr x)) k = None) /\ got x = []).
  { induction H as [|x now' e x' out' H (J1 & J2 & J3 & J4) Bu Es].
    - cbn. destruct I as (I1 & I2 & I3). auto.
    - destruct (deaf_step x now' e x' out' Bu J1 J2 J3 Es) as (K1 & K2 & K3 & K4).
      rewrite K4. auto. }
  destruct J as (_ & _ & J3 & J4). split; [exact J4|].
  unfold queued. revert J3. generalize (rq (fr x)). clear.
  induction l as [|o l IH]; intros J; [reflexivity|]. cbn.
  pose proof (J O) as J0. unfold rq_get in J0. cbn in J0. subst o. cbn.
  apply IH. intros k. exact (J (S k)).
Qed.

Definition first_ack : pci := ctrl true true false 5001 5257.

(* C20 in full is false: the first packet is not accepted, whatever its
   sequence number, after an acknowledgement. *)
Theorem frct_first_packet_refuted :
  ~ (forall a r mpl t0 t1 now1 rnd f1 h now d early,
      0 <= a -> 0 <= r -> 0 <= mpl -> t0 <= now -> t1 <= now1 ->
      Forall (fun x => t0 <= fst x <= now /\ p_data (snd x) = false) early ->
      frcti_snd (frcti_create a r mpl true t1) now1 rnd = Ok (f1, h) ->
      exists f out,
        frcti_rcv (receive_all (frcti_create a r mpl true t0) early) now h d = (f, Queued, out)).
Proof.
  intros H.
  set (f1 := match frcti_snd (frcti_create 10 120 60 true (ts 1000)) (ts 1002) 77 with
             | Ok (f, _) => f | UB => frcti_create 10 120 60 true (ts 1000) end).
  set (h := match frcti_snd (frcti_create 10 120 60 true (ts 1000)) (ts 1002) 77 with
             | Ok (_, h) => h | UB => first_ack end).
  assert (E : frcti_snd (frcti_create 10 120 60 true (ts 1000)) (ts 1002) 77 = Ok (f1, h))
    by (vm_compute; reflexivity).
  assert (F : Forall (fun x => ts 1000 <= fst x <= ts 1003 /\ p_data (snd x) = false) [(ts 1001, first_ack)]).
  { constructor; [|constructor]. vm_compute. repeat split; discriminate. }
  destruct (H 10 120 60 (ts 1000) (ts 1000) (ts 1002) 77 f1 h (ts 1003) [1]%N [(ts 1001, first_ack)]
              ltac:(lia) ltac:(lia) ltac:(lia) ltac:(vm_compute; discriminate) ltac:(vm_compute; discriminate) F E)
    as (f & out & X).
  assert (Y : snd (fst (frcti_rcv (receive_all (frcti_create 10 120 60 true (ts 1000)) [(ts 1001, first_ack)])
                          (ts 1003) h [1]%N)) = Dropped) by (vm_compute; reflexivity).
  rewrite X in Y. discriminate Y.
Qed.

(* It happens between two ends that run this code: B writes first, A reads
   and acknowledges, and only then writes something itself.  B drops the
   packet and its retransmissions. *)
Definition early_script : list (side * Z * cmd) :=
  [(B, ts 1000, CWrite [7]%N 5000); (A, ts 1001, CRecv 0); (A, ts 1001, CRead); (A, ts 1002, CAck);
   (B, ts 1003, CRecv 0); (A, ts 1004, CWrite [1]%N 77); (B, ts 1005, CRecv 1); (B, ts 1005, CRead);
   (A, ts 1006, CFire 0); (B, ts 1006, CRecv 2); (B, ts 1007, CRead);
   (A, ts 1070, CFire 0); (B, ts 1070, CRecv 3); (B, ts 1071, CRead)].

Example frct_early_ack_happens :
  match run half_space_b early_script start17 with
  | Some s => got (ea s) = [[7]]%N /\ got (eb s) = [] /\ map fst (wrote (ea s)) = [[1]]%N /\
              map (fun e => rxm_fire (fr (ea s)) (ts 1130) e false true) (rxms (ea s)) = [Down]
  | None => False
  end.
Proof. vm_compute. repeat split. Qed.

(* ==== C21 ==== *)

(* A's window is closed at R, which is where B's window ends, everything A
   sent before has arrived or is lost. *)
Record stalled (R : Z) (W : list (data * Z)) (s : flow) : Prop := {
  s_R : 0 <= R < two32;
  s_seqno : seqno (snd_cr (fr (ea s))) = R;
  s_rwe : rwe (snd_cr (fr (ea s))) = R;
  s_fc : f_rescntl (snd_cr (fr (ea s))) = true;
  s_rxa : rxms (ea s) = [];
  s_rxb : rxms (eb s) = [];
  s_rtxb : f_rtx (snd_cr (fr (eb s))) = false;
  s_edge : rwe (rcv_cr (fr (eb s))) = R;
  s_empty : forall k, rq_get (rq (fr (eb s))) k = None;
  s_nab : forall fl, In fl (nab s) ->
            f_sent fl + mpl (fr (ea s)) < clock s \/ (p_data (f_hdr fl) = false /\ p_drf (f_hdr fl) = false);
  s_nba : forall fl, In fl (nba s) ->
            f_sent fl + mpl (fr (ea s)) < clock s \/
            (p_fc (f_hdr fl) = true -> p_window (f_hdr fl) = R mod 2 ^ 24);
  s_wrote : wrote (ea s) = W
}.

Lemma decode_same : forall R, 0 <= R < two32 -> decode_rwe R (R mod 2 ^ 24) = R.
Proof.
  intros R H. assert (W : w32 R = R) by (apply Z.mod_small; exact H).
  pose proof (decode_exact R R ltac:(lia)) as D. rewrite W in D. exact D.
Qed.

(* Where the parts of the state of an end of the flow can change. *)
Definition part_a (f : frcti) := (seqno (snd_cr f), f_rescntl (snd_cr f), f_rtx (snd_cr f), mpl f).
Definition part_b (f : frcti) := (rwe (rcv_cr f), rq f, f_rtx (snd_cr f)).

Lemma nil_nth {X} : forall n, nth_error (@nil X) n = None.
Proof. intros [|n]; reflexivity. Qed.

Lemma send_parts : forall f now f' ps, send_frct_pkt f now = (f', ps) ->
  part_a f' = part_a f /\ part_b f' = part_b f /\ rwe (snd_cr f') = rwe (snd_cr f) /\
  forall p, In p ps -> p_data p = false /\ p_drf p = false /\ p_window p = rwe (rcv_cr f) mod 2 ^ 24.
Proof.
  intros f now f' ps E. unfold send_frct_pkt in E.
  destruct (negb (after (lwe (rcv_cr f)) (seqno (rcv_cr f)))); [injection E as <- <-; do 3 (split; [reflexivity|]); intros p []|].
  destruct (now - act (rcv_cr f) >? a f); [injection E as <- <-; do 3 (split; [reflexivity|]); intros p []|].
  destruct (now - act (snd_cr f) <? TICTIME); injection E as <- <-; do 3 (split; [reflexivity|]).
  - intros p [].
  - intros p [<- | []]. cbn. auto.
Qed.

Lemma prep_parts : forall f now p,
  part_a (prepared f now p) = part_a f /\ part_b (prepared f now p) = part_b f /\
  rwe (snd_cr (prepared f now p)) =
    (if p_fc p then decode_rwe (rwe (snd_cr f)) (p_window p) else rwe (snd_cr f)).
Proof.
  intros. unfold prepared, rcv_fc, rcv_ack, rtt_estimator.
  destruct (p_ack p), (p_fc p); cbn;
  repeat match goal with
  | |- context [if ?b then _ else _] => destruct b; cbn
  | |- context [let '(_, _) := if ?b then _ else _ in _] => destruct b; cbn
  end; auto.
Qed.

Lemma data_parts : forall f now p d f' t ps, rcv_data f now p d = (f', t, ps) ->
  part_a f' = part_a f /\ rwe (snd_cr f') = rwe (snd_cr f) /\
  (p_data p = false -> part_b f' = part_b f) /\
  forall c, In c ps -> p_data c = false /\ p_drf c = false /\ p_window c = rwe (rcv_cr f) mod 2 ^ 24.
Proof.
  intros f now p d f' t ps E.
  assert (Dr : forall g, drop g now = (f', t, ps) -> part_a g = part_a f -> part_b g = part_b f ->
            rwe (snd_cr g) = rwe (snd_cr f) ->
            part_a f' = part_a f /\ rwe (snd_cr f') = rwe (snd_cr f) /\
            (p_data p = false -> part_b f' = part_b f) /\
            forall c, In c ps -> p_data c = false /\ p_drf c = false /\
              p_window c = rwe (rcv_cr f) mod 2 ^ 24).
  { intros g D X1 X2 X3. unfold drop in D. destruct (send_frct_pkt g now) as [g' o] eqn:F.
    injection D as <- _ <-. destruct (send_parts _ _ _ _ F) as (S1 & S2 & S3 & S4).
    split; [congruence|]. split; [congruence|]. split; [intros _; congruence|].
    assert (rwe (rcv_cr g) = rwe (rcv_cr f)) as <- by (injection X2; auto). exact S4. }
  unfold rcv_data in E. destruct (p_data p) eqn:Pd; cbn [negb] in E; [|apply (Dr f); auto].
  destruct (before (p_seqno p) (lwe (rcv_cr f))); [eapply Dr; [exact E|..]; reflexivity|].
  assert (No : forall q c, (f', t, ps) = (with_rq (with_rcv f c) q, Queued, []) ->
            part_a f' = part_a f /\ rwe (snd_cr f') = rwe (snd_cr f) /\
            (true = false -> part_b f' = part_b f) /\
            forall c, In c ps -> p_data c = false /\ p_drf c = false /\
              p_window c = rwe (rcv_cr f) mod 2 ^ 24).
  { intros q c X. injection X as -> _ ->. do 2 (split; [reflexivity|]). split; [discriminate|]. intros x []. }
  destruct (f_rtx (rcv_cr f)).
  - destruct (negb (before (p_seqno p) (rwe (rcv_cr f)))); [apply (Dr f); auto|].
    destruct (negb (before (p_seqno p) (w32 (lwe (rcv_cr f) + RQ_SIZE)))); [apply (Dr f); auto|].
    destruct (rq_get (rq f) (slot (p_seqno p))); [apply (Dr f); auto|].
    injection E as <- <- <-. do 2 (split; [reflexivity|]). split; [discriminate|]. intros x [].
  - symmetry in E. eapply No. exact E.
Qed.

Lemma rcv_parts : forall f now p d f' t ps, frcti_rcv f now p d = (f', t, ps) ->
  part_a f' = part_a f /\
  (rwe (snd_cr f') = rwe (snd_cr f) \/
   (p_fc p = true /\ rwe (snd_cr f') = decode_rwe (rwe (snd_cr f)) (p_window p))) /\
  (p_data p = false -> p_drf p = false -> part_b f' = part_b f) /\
  (forall c, In c ps -> p_data c = false /\ p_drf c = false /\
     (p_drf p = false -> p_window c = rwe (rcv_cr f) mod 2 ^ 24)).
Proof.
  intros f now p d f' t ps E.
  assert (R : forall g, part_a g = part_a f -> rwe (snd_cr g) = rwe (snd_cr f) ->
     (p_drf p = false -> part_b g = part_b f) ->
     rcv_active g now p d = (f', t, ps) ->
     part_a f' = part_a f /\
     (rwe (snd_cr f') = rwe (snd_cr f) \/
      (p_fc p = true /\ rwe (snd_cr f') = decode_rwe (rwe (snd_cr f)) (p_window p))) /\
     (p_data p = false -> p_drf p = false -> part_b f' = part_b f) /\
     (forall c, In c ps -> p_data c = false /\ p_drf c = false /\
        (p_drf p = false -> p_window c = rwe (rcv_cr f) mod 2 ^ 24))).
  { intros g G1 G2 G3 R. unfold rcv_active in R. cbv zeta in R. destruct (p_rdvs p).
    - injection R as <- _ <-. split; [exact G1|]. split; [left; exact G2|].
      split; [intros _ X; exact (G3 X)|]. intros c [<- | []]. cbn. do 2 (split; [reflexivity|]).
      intros X. specialize (G3 X). injection G3 as -> _ _. reflexivity.
    - fold (prepared g now p) in R. destruct (prep_parts g now p) as (P1 & P2 & P3).
      destruct (data_parts _ _ _ _ _ _ _ R) as (D1 & D2 & D3 & D4).
      split; [congruence|]. split.
      { rewrite D2, P3, G2. destruct (p_fc p); auto. }
      split; [intros X Y; rewrite D3, P2; auto|].
      intros c Hc. destruct (D4 c Hc) as (C1 & C2 & C3). do 2 (split; [assumption|]).
      intros X. rewrite C3. specialize (G3 X). rewrite <- P2 in G3. injection G3 as -> _ _. reflexivity. }
  unfold frcti_rcv in E. destruct (rcv_inactive f now).
  - destruct (p_drf p) eqn:Pf; [eapply R; [| | |exact E]; try reflexivity; discriminate|].
    destruct (p_data p) eqn:Pd; [|eapply R; [| | |exact E]; auto].
    unfold drop in E. destruct (send_frct_pkt f now) as [g o] eqn:F. injection E as <- _ <-.
    destruct (send_parts _ _ _ _ F) as (S1 & S2 & S3 & S4).
    split; [exact S1|]. split; [left; exact S3|]. split; [discriminate|].
    intros c Hc. destruct (S4 c Hc) as (C1 & C2 & C3). auto.
  - eapply R; [| | |exact E]; auto.
Qed.

Lemma wopen_parts : forall f now f' b ps, frcti_is_window_open f now = (f', b, ps) ->
  part_a f' = part_a f /\ part_b f' = part_b f /\ rwe (snd_cr f') = rwe (snd_cr f) /\
  forall p, In p ps -> p_data p = false /\ p_drf p = false /\ p_fc p = false.
Proof.
  intros f now f' b ps E. unfold frcti_is_window_open in E.
  destruct (negb (f_rescntl (snd_cr f)) || before (seqno (snd_cr f)) (rwe (snd_cr f)));
    [injection E as <- _ <-; do 3 (split; [reflexivity|]); intros p []|].
  destruct (open f); [injection E as <- _ <-; do 3 (split; [reflexivity|]); intros p []|].
  destruct (now - t_wnd f >? MAX_RDV); [injection E as <- _ <-; do 3 (split; [reflexivity|]); intros p []|].
  destruct (now - t_rdvs f >? DELT_RDV); injection E as <- _ <-; do 3 (split; [reflexivity|]);
    [intros p [<- | []]; cbn; auto | intros p []].
Qed.

Lemma wtimeout_parts : forall f now f' b ps, window_timeout f now = (f', b, ps) ->
  part_a f' = part_a f /\ part_b f' = part_b f /\ rwe (snd_cr f') = rwe (snd_cr f) /\
  forall p, In p ps -> p_data p = false /\ p_drf p = false /\ p_fc p = false.
Proof.
  intros f now f' b ps E. unfold window_timeout in E.
  destruct (now - t_wnd f >? MAX_RDV); [injection E as <- _ <-; do 3 (split; [reflexivity|]); intros p []|].
  destruct (now - t_rdvs f >? DELT_RDV); injection E as <- _ <-; do 3 (split; [reflexivity|]);
    [intros p [<- | []]; cbn; auto | intros p []].
Qed.

Lemma wblock_parts : forall f now,
  part_a (window_before_wait f now) = part_a f /\ part_b (window_before_wait f now) = part_b f /\
  rwe (snd_cr (window_before_wait f now)) = rwe (snd_cr f).
Proof. intros. unfold window_before_wait. destruct (open f); auto. Qed.

Lemma impolite : forall f now R, seqno (snd_cr f) = R -> rwe (snd_cr f) = R -> 0 <= R < two32 ->
  f_rescntl (snd_cr f) = true ->
  snd (fst (frcti_is_window_open f now)) = false /\ window_closed f = true.
Proof.
  intros f now R H1 H2 H3 H4. split.
  - unfold frcti_is_window_open. rewrite H1, H2, H4. cbn [negb orb].
    assert (before R R = false) as ->.
    { assert (W : w32 R = R) by (apply Z.mod_small; exact H3).
      rewrite <- W at 1 2. rewrite before_w32; lia. }
    destruct (open f); [reflexivity|].
    destruct (now - t_wnd f >? MAX_RDV); [reflexivity|].
    destruct (now - t_rdvs f >? DELT_RDV); reflexivity.
  - unfold window_closed. rewrite H1, H2, H4, Z.eqb_refl. reflexivity.
Qed.

Lemma stalled_step : forall R W s ac s', stalled R W s -> possible s ac -> polite s ac ->
  flow_step s ac = Ok s' -> stalled R W s'.
Proof.
  intros R W s [[sd now] e] s' [] [Tm Pos] Pol St.
  assert (Nab : forall fl, In fl (nab s) ->
            f_sent fl + mpl (fr (ea s)) < now \/ (p_data (f_hdr fl) = false /\ p_drf (f_hdr fl) = false)).
  { intros fl Hf. destruct (s_nab0 fl Hf); [left; lia | right; assumption]. }
  assert (Nba : forall fl, In fl (nba s) ->
            f_sent fl + mpl (fr (ea s)) < now \/
            (p_fc (f_hdr fl) = true -> p_window (f_hdr fl) = R mod 2 ^ 24)).
  { intros fl Hf. destruct (s_nba0 fl Hf); [left; lia | right; assumption]. }
  destruct sd; cbn [flow_step] in St.
  - destruct (ep_step (ea s) now e) as [[x out]|] eqn:Es; [|discriminate]. injection St as <-.
    assert (Done : forall f g ps aw, part_a f = part_a (fr (ea s)) -> rwe (snd_cr f) = R ->
              x = Ep f [] W g ->
              out = control (ea s) now ps ->
              (forall p, In p ps -> p_data p = false /\ p_drf p = false) ->
              stalled R W (Flow x (eb s) (nab s ++ out) (nba s) now aw)).
    { intros f g ps aw X1 X2 -> -> X3. unfold part_a in X1. injection X1 as Y1 Y2 _ Y4.
      constructor; cbn [ea eb nab nba clock fr rxms wrote]; auto; try congruence.
      - intros fl Hf. rewrite Y4. apply in_app_or in Hf. destruct Hf as [Hf | Hf]; [auto|]. right.
        unfold control in Hf. apply in_map_iff in Hf. destruct Hf as (p & <- & Hp). apply X3. exact Hp.
      - rewrite Y4. exact Nba. }
    destruct e as [d rnd | | fl | | n full wr | | | ]; cbn [ep_step] in Es.
    + exfalso. cbn [polite] in Pol. destruct (impolite (fr (ea s)) now R) as [P1 P2]; auto.
      destruct Pol; congruence.
    + destruct (frcti_queued_pdu (fr (ea s))) as [f o] eqn:E.
      assert (part_a f = part_a (fr (ea s)) /\ rwe (snd_cr f) = R) as [X1 X2].
      { unfold frcti_queued_pdu in E. destruct (rq_get _ _); injection E as <- _; split; auto. }
      destruct o; injection Es as <- <-; rewrite s_rxa0, s_wrote0 in *; eapply (Done f _ []); eauto;
        intros p [].
    + destruct (frcti_rcv (fr (ea s)) now (f_hdr fl) (f_body fl)) as [[f t] ps] eqn:E.
      injection Es as <- <-. destruct (rcv_parts _ _ _ _ _ _ _ E) as (P1 & P2 & _ & P4).
      destruct Pos as [Pi Pl]. rewrite s_rxa0, s_wrote0 in *.
      eapply (Done f _ ps); eauto.
      * destruct P2 as [P2 | [P2 P3]]; [congruence|].
        destruct (Nba fl Pi) as [X | X]; [lia|]. rewrite P3, (X P2), s_rwe0. apply decode_same. exact s_R0.
      * intros p Hp. destruct (P4 p Hp) as (Q1 & Q2 & _). auto.
    + destruct (send_frct_pkt (fr (ea s)) now) as [f ps] eqn:E. injection Es as <- <-.
      destruct (send_parts _ _ _ _ E) as (P1 & _ & P3 & P4). rewrite s_rxa0, s_wrote0 in *.
      eapply (Done f _ ps); eauto; [congruence|]. intros p Hp. destruct (P4 p Hp) as (Q1 & Q2 & _). auto.
    + rewrite s_rxa0 in Es. rewrite nil_nth in Es. injection Es as <- <-.
      eapply (Done (fr (ea s)) (got (ea s)) []); auto; [|intros p []].
      destruct (ea s); cbn in *; congruence.
    + destruct (frcti_is_window_open (fr (ea s)) now) as [[f b] ps] eqn:E. injection Es as <- <-.
      destruct (wopen_parts _ _ _ _ _ E) as (P1 & _ & P3 & P4). rewrite s_rxa0, s_wrote0 in *.
      eapply (Done f _ ps); eauto; [congruence|]. intros p Hp. destruct (P4 p Hp) as (Q1 & Q2 & _). auto.
    + injection Es as <- <-. destruct (wblock_parts (fr (ea s)) now) as (P1 & _ & P3).
      rewrite s_rxa0, s_wrote0 in *. eapply (Done _ _ []); eauto; [congruence | intros p []].
    + destruct (window_timeout (fr (ea s)) now) as [[f b] ps] eqn:E. injection Es as <- <-.
      destruct (wtimeout_parts _ _ _ _ _ E) as (P1 & _ & P3 & P4). rewrite s_rxa0, s_wrote0 in *.
      eapply (Done f _ ps); eauto; [congruence|]. intros p Hp. destruct (P4 p Hp) as (Q1 & Q2 & _). auto.
  - destruct (ep_step (eb s) now e) as [[x out]|] eqn:Es; [|discriminate]. injection St as <-.
    assert (Done : forall f w g aw, part_b f = part_b (fr (eb s)) ->
              x = Ep f [] w g ->
              (forall fl, In fl out -> p_fc (f_hdr fl) = true -> p_window (f_hdr fl) = R mod 2 ^ 24) ->
              stalled R W (Flow (ea s) x (nab s) (nba s ++ out) now aw)).
    { intros f w g aw X1 -> X3. unfold part_b in X1. injection X1 as Y1 Y2 Y3.
      constructor; cbn [ea eb nab nba clock fr rxms wrote]; auto; try congruence.
      intros fl Hf. apply in_app_or in Hf. destruct Hf as [Hf | Hf]; auto. }
    assert (Ctl : forall ps fl, (forall p, In p ps -> p_fc p = true -> p_window p = R mod 2 ^ 24) ->
              In fl (control (eb s) now ps) -> p_fc (f_hdr fl) = true -> p_window (f_hdr fl) = R mod 2 ^ 24).
    { intros ps fl X Hf. unfold control in Hf. apply in_map_iff in Hf. destruct Hf as (p & <- & Hp).
      cbn. apply X. exact Hp. }
    destruct e as [d rnd | | fl | | n full wr | | | ]; cbn [ep_step] in Es.
    + destruct (frcti_snd (fr (eb s)) now rnd) as [[f h]|] eqn:E; [|discriminate].
      assert (part_b f = part_b (fr (eb s)) /\ f_rtx (snd_cr f) = false /\
              (p_fc h = true -> p_window h = R mod 2 ^ 24)) as (X1 & X2 & X3).
      { unfold frcti_snd in E. destruct (snd_inactive (fr (eb s)) now && _); [discriminate|].
        cbv zeta in E. rewrite s_rtxb0 in E. cbn [andb] in E. injection E as <- <-.
        unfold part_b. cbn. rewrite s_edge0.
        split; [destruct (snd_inactive (fr (eb s)) now); reflexivity|].
        split; [destruct (snd_inactive (fr (eb s)) now); exact s_rtxb0|].
        intros ->. reflexivity. }
      injection Es as <- <-. rewrite X2, s_rxb0 in Done |- *. cbn [andb] in Done |- *.
      eapply (Done f); eauto. intros fl [<- | []]. exact X3.
    + destruct (frcti_queued_pdu (fr (eb s))) as [f o] eqn:E. unfold frcti_queued_pdu in E.
      rewrite s_empty0 in E. injection E as <- <-. injection Es as <- <-. rewrite s_rxb0 in Done |- *.
      eapply (Done (fr (eb s))); eauto. intros fl [].
    + destruct (frcti_rcv (fr (eb s)) now (f_hdr fl) (f_body fl)) as [[f t] ps] eqn:E.
      injection Es as <- <-. destruct (rcv_parts _ _ _ _ _ _ _ E) as (_ & _ & P3 & P4).
      destruct Pos as [Pi Pl]. destruct (Nab fl Pi) as [X | [X1 X2]]; [lia|]. rewrite s_rxb0 in Done |- *.
      eapply (Done f); eauto. intros c Hc. eapply Ctl; [|exact Hc].
      intros p Hp _. destruct (P4 p Hp) as (_ & _ & Q). rewrite (Q X2), s_edge0. reflexivity.
    + destruct (send_frct_pkt (fr (eb s)) now) as [f ps] eqn:E. injection Es as <- <-.
      destruct (send_parts _ _ _ _ E) as (_ & P2 & _ & P4). rewrite s_rxb0 in Done |- *.
      eapply (Done f); eauto. intros c Hc. eapply Ctl; [|exact Hc].
      intros p Hp _. destruct (P4 p Hp) as (_ & _ & Q). rewrite Q, s_edge0. reflexivity.
    + rewrite s_rxb0 in Es. rewrite nil_nth in Es. injection Es as <- <-.
      eapply (Done (fr (eb s)) (wrote (eb s)) (got (eb s))); auto; [|intros p []].
      destruct (eb s); cbn in *; congruence.
    + destruct (frcti_is_window_open (fr (eb s)) now) as [[f b] ps] eqn:E. injection Es as <- <-.
      destruct (wopen_parts _ _ _ _ _ E) as (_ & P2 & _ & P4). rewrite s_rxb0 in Done |- *.
      eapply (Done f); eauto. intros c Hc. eapply Ctl; [|exact Hc].
      intros p Hp X. destruct (P4 p Hp) as (_ & _ & Q). congruence.
    + injection Es as <- <-. destruct (wblock_parts (fr (eb s)) now) as (_ & P2 & _). rewrite s_rxb0 in Done |- *.
      eapply (Done _); eauto. intros fl [].
    + destruct (window_timeout (fr (eb s)) now) as [[f b] ps] eqn:E. injection Es as <- <-.
      destruct (wtimeout_parts _ _ _ _ _ E) as (_ & P2 & _ & P4). rewrite s_rxb0 in Done |- *.
      eapply (Done f); eauto. intros c Hc. eapply Ctl; [|exact Hc].
      intros p Hp X. destruct (P4 p Hp) as (_ & _ & Q). congruence.
Qed.

(* A flow without retransmission.  The first packet arrives and is read; B
   answers, which tells A about its window; then the network loses 256
   packets. *)
Definition start21 : flow := flow_init 10 120 60 false (ts 1000) (ts 1000).

Definition script21 : list (side * Z * cmd) :=
  (A, ts 1000, CWrite [0]%N 100) :: (B, ts 1001, CRecv 0) :: (B, ts 1001, CRead) ::
  (B, ts 1001, CWrite [7]%N 5) :: (A, ts 1002, CRecv 0) :: (A, ts 1002, CRead) ::
  repeat (A, ts 1003, CWrite [1]%N 0) 256 ++
  [(A, ts 1064, CWopen)].

Definition end21 : flow := match run polite_b script21 start21 with Some s => s | None => start21 end.

Definition expired_b (s : flow) (fl : flight) : bool := f_sent fl + mpl (fr (ea s)) <? clock s.

Lemma end21_stalled : stalled 357 (wrote (ea end21)) end21.
Proof.
  constructor.
  - vm_compute. split; [discriminate | reflexivity].
  - vm_compute. reflexivity.
  - vm_compute. reflexivity.
  - vm_compute. reflexivity.
  - vm_compute. reflexivity.
  - vm_compute. reflexivity.
  - vm_compute. reflexivity.
  - vm_compute. reflexivity.
  - intros k. assert (E : rq (fr (eb end21)) = repeat None 256) by (vm_compute; reflexivity).
    rewrite E. apply nth_repeat.
  - assert (E : forallb (expired_b end21) (nab end21) = true) by (vm_compute; reflexivity).
    intros fl Hf. left. rewrite forallb_forall in E. specialize (E fl Hf). unfold expired_b in E. lia.
  - assert (E : forallb (expired_b end21) (nba end21) = true) by (vm_compute; reflexivity).
    intros fl Hf. left. rewrite forallb_forall in E. specialize (E fl Hf). unfold expired_b in E. lia.
  - reflexivity.
Qed.

Lemma end21_history : history (fun s ac => possible s ac /\ polite s ac) start21 end21.
Proof.
  apply (run_history polite_b polite start21) with (l := script21) (s := start21).
  - exact polite_ok.
  - apply h_start.
  - vm_compute. reflexivity.
Qed.

(* C21 is false: A, which writes only when the window allows it, never
   writes again, whatever both ends do from then on, although the network
   may deliver everything. *)
Theorem frct_loss_no_stall_refuted :
  exists s, history (fun s ac => possible s ac /\ polite s ac) start21 s /\
    zlen (wrote (ea s)) = 257 /\
    forall s', history (fun s ac => possible s ac /\ polite s ac) s s' ->
      wrote (ea s') = wrote (ea s) /\
      forall now, snd (fst (frcti_is_window_open (fr (ea s')) now)) = false /\
                  window_closed (fr (ea s')) = true.
Proof.
  exists end21. split; [exact end21_history|]. split; [vm_compute; reflexivity|].
  intros s' H.
  assert (I : stalled 357 (wrote (ea end21)) s').
  { induction H as [|s ac s' H IH [P Q] E]; [exact end21_stalled|]. eapply stalled_step; eauto. }
  destruct I. split; [assumption|]. intros now. eapply impolite; eauto.
Qed.

(* C21, the part that holds.  The packets of one run on a flow without
   retransmission, numbered from 0: those with numbers in [arrived] (in
   increasing order) reach the reader, who reads each of them before the
   next one arrives; the others are lost. *)
Inductive unreliable_rx (s0 : Z) : frcti -> list Z -> Prop :=
| ur_first : forall f now p d f' out f'',
    f_rtx (rcv_cr f) = false -> rcv_inactive f now = true ->
    p_data p = true -> p_drf p = true -> p_rdvs p = false -> p_seqno p = w32 s0 ->
    length (rq f) = Z.to_nat RQ_SIZE ->
    frcti_rcv f now p d = (f', Queued, out) -> frcti_queued_pdu f' = (f'', Some d) ->
    unreliable_rx s0 f'' [0]
| ur_next : forall f l last i now p d f' t out f'' o,
    unreliable_rx s0 f (last :: l) ->
    rcv_inactive f now = false ->
    p_data p = true -> p_rdvs p = false -> p_seqno p = w32 (s0 + i) ->
    last < i < last + 2 ^ 31 ->
    frcti_rcv f now p d = (f', t, out) -> frcti_queued_pdu f' = (f'', o) ->
    unreliable_rx s0 f'' (i :: last :: l).

(* The edge the receiver advertises is the number of packets that arrived,
   beyond the initial window; so a sender that has sent n packets, fewer
   than 256 of which were lost, finds its window open when it hears of it. *)
Theorem frct_loss_no_stall_partial : forall s0 f l n snd,
  unreliable_rx s0 f l ->
  n - zlen l < RQ_SIZE -> zlen l <= n < 2 ^ 30 ->
  seqno (snd_cr snd) = w32 (s0 + n) -> rwe (snd_cr snd) = rwe (rcv_cr f) ->
  rwe (rcv_cr f) = w32 (s0 + RQ_SIZE + zlen l) /\
  forall now, FrctModel.frcti_is_window_open snd now = (snd, true, []).
Proof.
  intros s0 f l n snd H Ln Hn Hs He.
  assert (I : rwe (rcv_cr f) = w32 (s0 + RQ_SIZE + zlen l)).
  { clear Ln Hn Hs He.
    assert (G : f_rtx (rcv_cr f) = false /\ length (rq f) = Z.to_nat RQ_SIZE /\
                rwe (rcv_cr f) = w32 (s0 + RQ_SIZE + zlen l) /\
                lwe (rcv_cr f) = w32 (s0 + hd 0 l + 1)).
    { induction H as [f now p d f' out f'' H1 H2 H3 H4 H5 H6 H7 E1 E2 |
                      f l last i now p d f' t out f'' o H (I1 & I2 & I3 & I4) H2 H3 H5 H6 H7 E1 E2].
      - unfold frcti_rcv in E1. rewrite H2, H4 in E1. set (g := with_rcv f _) in E1.
        unfold rcv_active in E1. cbv zeta in E1. rewrite H5 in E1. fold (prepared g now p) in E1.
        destruct (prepared_rcv g now p) as [P1 P2].
        unfold rcv_data in E1. rewrite H3, P1, P2 in E1.
        cbn [negb lwe rwe f_rtx seqno cr_act cr_wnd rcv_cr with_rcv g] in E1. rewrite H1 in E1.
        destruct (before (p_seqno p) (p_seqno p)) eqn:Bf.
        { unfold drop in E1. destruct (send_frct_pkt _ now) in E1. discriminate E1. }
        injection E1 as <- _. unfold frcti_queued_pdu in E2. cbn [rcv_cr with_rq with_rcv rq lwe cr_wnd] in E2.
        rewrite rq_get_set_same in E2 by (cbn; rewrite H7; apply slot_lt).
        injection E2 as <-. cbn [rcv_cr with_rq with_rcv rq lwe rwe cr_wnd f_rtx cr_act hd].
        split; [exact H1|]. split; [rewrite !rq_set_length; exact H7|].
        rewrite H6, !w32_add, <- Z.add_assoc, w32_add. change (zlen [0]) with 1. split; f_equal; lia.
      - unfold frcti_rcv in E1. rewrite H2 in E1. unfold rcv_active in E1. cbv zeta in E1. rewrite H5 in E1.
        fold (prepared f now p) in E1. destruct (prepared_rcv f now p) as [P1 P2].
        unfold rcv_data in E1. rewrite H3, P1, P2 in E1.
        cbn [negb lwe rwe f_rtx seqno cr_act cr_wnd] in E1. rewrite I1, H6, I4 in E1. cbn [hd] in E1.
        rewrite before_w32 in E1 by lia. replace (s0 + i <? s0 + last + 1) with false in E1 by lia.
        injection E1 as <- _ _. unfold frcti_queued_pdu in E2.
        cbn [rcv_cr with_rq with_rcv rq lwe cr_wnd] in E2.
        rewrite rq_get_set_same in E2 by (rewrite I2; apply slot_lt).
        injection E2 as <- _. cbn [rcv_cr with_rq with_rcv rq lwe rwe cr_wnd f_rtx cr_act hd].
        split; [exact I1|]. split; [rewrite !rq_set_length; exact I2|].
        rewrite I3, !w32_add. unfold zlen. cbn [length]. split; f_equal; lia. }
    destruct G as (_ & _ & G & _). exact G. }
  split; [exact I|]. intros now. unfold FrctModel.frcti_is_window_open.
  rewrite Hs, He, I, before_w32; [|unfold RQ_SIZE in *; lia].
  replace (s0 + n <? s0 + RQ_SIZE + zlen l) with true by lia. rewrite orb_true_r. reflexivity.
Qed.

(* ==== C65 ==== *)

(* A sends in one direction on a flow without retransmission.  Each packet
   arrives and is read at once: the network loses nothing. *)
Definition script65 : list (side * Z * cmd) :=
  flat_map (fun k => [(A, ts 1000, CWrite [N.of_nat k] 100); (B, ts 1000, CRecv k); (B, ts 1000, CRead)])
    (List.seq 0 64) ++ [(A, ts 1061, CWopen)].

Definition end65 : flow := match run polite_b script65 start21 with Some s => s | None => start21 end.

(* B does not write.  On a flow without retransmission no timer for
   acknowledgements runs (frct.c:888, 922-926). *)
Definition one_way (s : flow) (ac : action) : Prop :=
  match ac with
  | (B, _, Write _ _) => False
  | (_, _, Ack) => False
  | _ => True
  end.

Record silent (R : Z) (W : list (data * Z)) (s : flow) : Prop := {
  q_R : 0 <= R < two32;
  q_seqno : seqno (snd_cr (fr (ea s))) = R;
  q_rwe : rwe (snd_cr (fr (ea s))) = R;
  q_fc : f_rescntl (snd_cr (fr (ea s))) = true;
  q_rxa : rxms (ea s) = [];
  q_rxb : rxms (eb s) = [];
  q_open : open (fr (ea s)) = false /\ MAX_RDV < clock s - t_wnd (fr (ea s));
  q_openb : before (seqno (snd_cr (fr (eb s)))) (rwe (snd_cr (fr (eb s)))) = true;
  q_nab : forall fl, In fl (nab s) -> f_sent fl + mpl (fr (ea s)) < clock s;
  q_nba : forall fl, In fl (nba s) -> f_sent fl + mpl (fr (ea s)) < clock s;
  q_openb2 : open (fr (eb s)) = false /\ MAX_RDV < clock s - t_wnd (fr (eb s));
  q_wrote : wrote (ea s) = W
}.

Lemma silent_step : forall R W s ac s', silent R W s -> possible s ac -> polite s ac -> one_way s ac ->
  flow_step s ac = Ok s' -> silent R W s'.
Proof.
  intros R W s [[sd now] e] s' [] [Tm Pos] Pol One St.
  assert (Nab : forall fl, In fl (nab s) -> f_sent fl + mpl (fr (ea s)) < now)
    by (intros fl Hf; specialize (q_nab0 fl Hf); lia).
  assert (Nba : forall fl, In fl (nba s) -> f_sent fl + mpl (fr (ea s)) < now)
    by (intros fl Hf; specialize (q_nba0 fl Hf); lia).
  destruct sd; cbn [flow_step] in St.
  - destruct (ep_step (ea s) now e) as [[x out]|] eqn:Es; [|discriminate]. injection St as <-.
    assert (Done : forall f g aw, part_a f = part_a (fr (ea s)) -> rwe (snd_cr f) = R ->
              open f = false -> t_wnd f = t_wnd (fr (ea s)) ->
              x = Ep f [] W g -> out = [] ->
              silent R W (Flow x (eb s) (nab s ++ out) (nba s) now aw)).
    { intros f g aw X1 X2 X3 X4 -> ->. unfold part_a in X1. injection X1 as Y1 Y2 _ Y4. rewrite app_nil_r.
      constructor; cbn [ea eb nab nba clock fr rxms wrote]; auto; try congruence; try lia.
      all: rewrite Y4; assumption. }
    destruct q_open0 as [O1 O2].
    destruct e as [d rnd | | fl | | n full wr | | | ]; cbn [ep_step] in Es.
    + exfalso. cbn [polite] in Pol. destruct (impolite (fr (ea s)) now R) as [P1 P2]; auto.
      destruct Pol; congruence.
    + destruct (frcti_queued_pdu (fr (ea s))) as [f o] eqn:E.
      assert (part_a f = part_a (fr (ea s)) /\ rwe (snd_cr f) = R /\ open f = false /\
              t_wnd f = t_wnd (fr (ea s))) as (X1 & X2 & X3 & X4).
      { unfold frcti_queued_pdu in E. destruct (rq_get _ _); injection E as <- _; auto. }
      destruct o; injection Es as <- <-; rewrite q_rxa0, q_wrote0 in *; eapply (Done f); eauto.
    + exfalso. destruct Pos as [Pi Pl]. specialize (Nba fl Pi). lia.
    + exfalso. exact One.
    + rewrite q_rxa0 in Es. rewrite nil_nth in Es. injection Es as <- <-.
      eapply (Done (fr (ea s)) (got (ea s))); auto. destruct (ea s); cbn in *; congruence.
    + destruct (frcti_is_window_open (fr (ea s)) now) as [[f b] ps] eqn:E. injection Es as <- <-.
      unfold frcti_is_window_open in E. rewrite q_seqno0, q_rwe0, q_fc0, O1 in E. cbn [negb orb] in E.
      assert (before R R = false) as Bf.
      { assert (X : w32 R = R) by (apply Z.mod_small; exact q_R0).
        rewrite <- X at 1 2. rewrite before_w32; lia. }
      rewrite Bf in E. replace (now - t_wnd (fr (ea s)) >? MAX_RDV) with true in E by lia.
      injection E as <- _ <-. rewrite q_rxa0, q_wrote0 in Done |- *. eapply Done; eauto.
    + injection Es as <- <-. unfold window_before_wait in *. rewrite O1, q_rxa0, q_wrote0 in *. eapply Done; eauto.
    + destruct (window_timeout (fr (ea s)) now) as [[f b] ps] eqn:E. injection Es as <- <-.
      unfold window_timeout in E. replace (now - t_wnd (fr (ea s)) >? MAX_RDV) with true in E by lia.
      injection E as <- _ <-. rewrite q_rxa0, q_wrote0 in Done |- *. eapply Done; eauto.
  - destruct (ep_step (eb s) now e) as [[x out]|] eqn:Es; [|discriminate]. injection St as <-.
    destruct q_open0 as [O1 O2]. destruct q_openb3 as [O3 O4].
    assert (Done : forall f g w aw, snd_cr f = snd_cr (fr (eb s)) -> open f = open (fr (eb s)) ->
              t_wnd f = t_wnd (fr (eb s)) -> x = Ep f [] w g -> out = [] ->
              silent R W (Flow (ea s) x (nab s) (nba s ++ out) now aw)).
    { intros f g w aw X1 X2 X3 -> ->. rewrite app_nil_r.
      constructor; cbn [ea eb nab nba clock fr rxms wrote]; auto; try congruence; (split; [congruence | lia]). }
    destruct e as [d rnd | | fl | | n full wr | | | ]; cbn [ep_step] in Es.
    + exfalso. exact One.
    + destruct (frcti_queued_pdu (fr (eb s))) as [f o] eqn:E.
      assert (snd_cr f = snd_cr (fr (eb s)) /\ open f = open (fr (eb s)) /\
              t_wnd f = t_wnd (fr (eb s))) as (X1 & X2 & X3).
      { unfold frcti_queued_pdu in E. destruct (rq_get _ _); injection E as <- _; auto. }
      destruct o; injection Es as <- <-; rewrite q_rxb0 in Done |- *; eapply (Done f); eauto.
    + exfalso. destruct Pos as [Pi Pl]. specialize (Nab fl Pi). lia.
    + exfalso. exact One.
    + rewrite q_rxb0 in Es. rewrite nil_nth in Es. injection Es as <- <-.
      eapply (Done (fr (eb s)) (got (eb s)) (wrote (eb s))); auto. destruct (eb s); cbn in *; congruence.
    + destruct (frcti_is_window_open (fr (eb s)) now) as [[f b] ps] eqn:E. injection Es as <- <-.
      unfold frcti_is_window_open in E. rewrite q_openb0, orb_true_r in E. injection E as <- _ <-.
      rewrite q_rxb0 in Done |- *. eapply (Done (fr (eb s))); eauto.
    + injection Es as <- <-. unfold window_before_wait in *. rewrite O3, q_rxb0 in *. eapply (Done (fr (eb s))); eauto.
    + destruct (window_timeout (fr (eb s)) now) as [[f b] ps] eqn:E. injection Es as <- <-.
      unfold window_timeout in E. replace (now - t_wnd (fr (eb s)) >? MAX_RDV) with true in E by lia.
      injection E as <- _ <-. rewrite q_rxb0 in Done |- *. eapply (Done (fr (eb s))); eauto.
Qed.

Lemma end65_silent : silent 164 (wrote (ea end65)) end65.
Proof.
  constructor.
  - vm_compute. split; [discriminate | reflexivity].
  - vm_compute. reflexivity.
  - vm_compute. reflexivity.
  - vm_compute. reflexivity.
  - vm_compute. reflexivity.
  - vm_compute. reflexivity.
  - vm_compute. split; reflexivity.
  - vm_compute. reflexivity.
  - assert (E : forallb (expired_b end65) (nab end65) = true) by (vm_compute; reflexivity).
    intros fl Hf. rewrite forallb_forall in E. specialize (E fl Hf). unfold expired_b in E. lia.
  - assert (E : forallb (expired_b end65) (nba end65) = true) by (vm_compute; reflexivity).
    intros fl Hf. rewrite forallb_forall in E. specialize (E fl Hf). unfold expired_b in E. lia.
  - vm_compute. split; reflexivity.
  - reflexivity.
Qed.

(* C65 is false: after 64 packets, all of which were read, the sender is
   stopped for ever, unless the reader happens to write something. *)
Theorem frct_one_way_flows_refuted :
  exists s, history (fun s ac => possible s ac /\ polite s ac /\ one_way s ac) start21 s /\
    got (eb s) = map fst (wrote (ea s)) /\ zlen (wrote (ea s)) = START_WINDOW /\
    forall s', history (fun s ac => possible s ac /\ polite s ac /\ one_way s ac) s s' ->
      wrote (ea s') = wrote (ea s) /\
      forall now, snd (fst (frcti_is_window_open (fr (ea s')) now)) = false /\
                  window_closed (fr (ea s')) = true.
Proof.
  exists end65. split.
  { assert (Hy : history (fun s ac => possible s ac /\ (polite s ac /\ one_way s ac)) start21 end65).
    { apply (run_history (fun s ac => polite_b s ac &&
               match ac with (B, _, Write _ _) => false | (_, _, Ack) => false | _ => true end)
               (fun s ac => polite s ac /\ one_way s ac) start21)
        with (l := script65) (s := start21).
      - intros s [[sd now] e] X. apply andb_true_iff in X. destruct X as [X1 X2].
        split; [apply polite_ok; exact X1|]. unfold one_way. destruct sd, e; try exact I; discriminate.
      - apply h_start.
      - vm_compute. reflexivity. }
    exact Hy. }
  split; [vm_compute; reflexivity|]. split; [vm_compute; reflexivity|].
  intros s' H.
  assert (I : silent 164 (wrote (ea end65)) s').
  { induction H as [|s ac s' H IH (P & Q & O) E]; [exact end65_silent|]. eapply silent_step; eauto. }
  destruct I. split; [assumption|]. intros now. eapply impolite; eauto.
Qed.

(* C65, the part that holds: if the peer's window update, which says it has
   room for RQ_SIZE packets beyond those it read, arrives, and the sender is
   less than that ahead, it can send. *)
Theorem frct_one_way_flows_partial : forall f p n E rd now,
  seqno (snd_cr f) = w32 n -> rwe (snd_cr f) = w32 E ->
  p_fc p = true -> p_window p = w32 (rd + RQ_SIZE) mod 2 ^ 24 ->
  E <= rd + RQ_SIZE <= E + 2 ^ 23 -> rd <= n < rd + RQ_SIZE ->
  snd (fst (frcti_is_window_open (rcv_fc f p) now)) = true /\ window_closed (rcv_fc f p) = false.
Proof.
  intros f p n E rd now Hs He Pf Pw HE Hn.
  assert (D : rwe (snd_cr (rcv_fc f p)) = w32 (rd + RQ_SIZE) /\ seqno (snd_cr (rcv_fc f p)) = w32 n).
  { assert (X : decode_rwe (rwe (snd_cr f)) (p_window p) = w32 (rd + RQ_SIZE))
      by (rewrite He, Pw; apply decode_exact; lia).
    unfold rcv_fc. rewrite Pf, X. cbn. destruct (open f); cbn; auto. }
  destruct D as [D1 D2]. split.
  - unfold frcti_is_window_open. rewrite D1, D2, before_w32 by (unfold RQ_SIZE in *; lia).
    replace (n <? rd + RQ_SIZE) with true by lia. rewrite orb_true_r. reflexivity.
  - unfold window_closed. rewrite D1, D2.
    destruct (w32 n =? w32 (rd + RQ_SIZE)) eqn:X; [|apply andb_false_r].
    apply Z.eqb_eq in X. apply w32_inj in X; unfold RQ_SIZE, two32 in *; lia.
Qed.

Print Assumptions frct_first_packet_partial.
Print Assumptions frct_deaf_after_early_control.
Print Assumptions frct_first_packet_refuted.
Print Assumptions frct_loss_no_stall_refuted.
Print Assumptions frct_loss_no_stall_partial.
Print Assumptions frct_one_way_flows_refuted.
Print Assumptions frct_one_way_flows_partial.
