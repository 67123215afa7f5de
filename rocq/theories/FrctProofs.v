(* What each function of the FRCT leaves alone, and arithmetic. *)
From Coq Require Import NArith ZArith List Bool Lia ZifyBool ZifyNat.
From Verif Require Import SeqNoModel SeqNoProofs FrctModel.
Import ListNotations.
Open Scope Z_scope.

(* ---- The part of the state that concerns sending, and receiving ---- *)

Definition core_snd (f : frcti) :=
  (lwe (snd_cr f), seqno (snd_cr f), act (snd_cr f), inact (snd_cr f), f_rtx (snd_cr f)).
Definition core_rcv (f : frcti) :=
  (lwe (rcv_cr f), act (rcv_cr f), inact (rcv_cr f), f_rtx (rcv_cr f), rq f).
Definition core_cfg (f : frcti) := (mpl f, a f, r f).

Lemma send_frct_pkt_core : forall f now f' out, send_frct_pkt f now = (f', out) ->
  core_snd f' = core_snd f /\ core_rcv f' = core_rcv f /\ core_cfg f' = core_cfg f /\
  (forall p, In p out -> p_data p = false /\ p_drf p = false /\ p_ack p = true /\
     p_ackno p = lwe (rcv_cr f) /\ now - act (rcv_cr f) <= a f).
Proof.
  intros f now f' out. unfold send_frct_pkt.
  destruct (negb (after (lwe (rcv_cr f)) (seqno (rcv_cr f)))) eqn:E1.
  { intros H; injection H as <- <-. repeat (split; [reflexivity|]). intros p []. }
  destruct (now - act (rcv_cr f) >? a f) eqn:E2.
  { intros H; injection H as <- <-. repeat (split; [reflexivity|]). intros p []. }
  destruct (now - act (snd_cr f) <? TICTIME) eqn:E3.
  { intros H; injection H as <- <-. repeat (split; [reflexivity|]). intros p []. }
  intros H; injection H as <- <-. repeat (split; [reflexivity|]).
  intros p [<- | []]. cbn. repeat split; lia.
Qed.

Lemma window_open_core : forall f now f' b out, frcti_is_window_open f now = (f', b, out) ->
  core_snd f' = core_snd f /\ core_rcv f' = core_rcv f /\ core_cfg f' = core_cfg f /\
  (forall p, In p out -> p_data p = false /\ p_drf p = false /\ p_ack p = false).
Proof.
  intros f now f' b out. unfold frcti_is_window_open.
  destruct (negb (f_rescntl (snd_cr f)) || before (seqno (snd_cr f)) (rwe (snd_cr f))).
  { intros H; injection H as <- <- <-. repeat (split; [reflexivity|]). intros p []. }
  destruct (open f).
  { intros H; injection H as <- <- <-. repeat (split; [reflexivity|]). intros p []. }
  destruct (now - t_wnd f >? MAX_RDV).
  { intros H; injection H as <- <- <-. repeat (split; [reflexivity|]). intros p []. }
  destruct (now - t_rdvs f >? DELT_RDV).
  { intros H; injection H as <- <- <-. repeat (split; [reflexivity|]).
    intros p [<- | []]. cbn. auto. }
  intros H; injection H as <- <- <-. repeat (split; [reflexivity|]). intros p [].
Qed.

Lemma window_timeout_core : forall f now f' b out, window_timeout f now = (f', b, out) ->
  core_snd f' = core_snd f /\ core_rcv f' = core_rcv f /\ core_cfg f' = core_cfg f /\
  (forall p, In p out -> p_data p = false /\ p_drf p = false /\ p_ack p = false).
Proof.
  intros f now f' b out. unfold window_timeout.
  destruct (now - t_wnd f >? MAX_RDV).
  { intros H; injection H as <- <- <-. repeat (split; [reflexivity|]). intros p []. }
  destruct (now - t_rdvs f >? DELT_RDV).
  { intros H; injection H as <- <- <-. repeat (split; [reflexivity|]).
    intros p [<- | []]. cbn. auto. }
  intros H; injection H as <- <- <-. repeat (split; [reflexivity|]). intros p [].
Qed.

Lemma before_wait_core : forall f now,
  core_snd (window_before_wait f now) = core_snd f /\
  core_rcv (window_before_wait f now) = core_rcv f /\
  core_cfg (window_before_wait f now) = core_cfg f.
Proof. intros. unfold window_before_wait. destruct (open f); repeat split. Qed.

Lemma queued_pdu_core : forall f f' o, frcti_queued_pdu f = (f', o) ->
  core_snd f' = core_snd f /\ core_cfg f' = core_cfg f /\
  match o with
  | None => rq_get (rq f) (slot (lwe (rcv_cr f))) = None /\ f' = f
  | Some d => rq_get (rq f) (slot (lwe (rcv_cr f))) = Some d /\
      core_rcv f' = (w32 (lwe (rcv_cr f) + 1), act (rcv_cr f), inact (rcv_cr f),
                     f_rtx (rcv_cr f), rq_set (rq f) (slot (lwe (rcv_cr f))) None)
  end.
Proof.
  intros f f' o. unfold frcti_queued_pdu.
  destruct (rq_get (rq f) (slot (lwe (rcv_cr f)))) eqn:E; intros H; injection H as <- <-.
  - repeat (split; [reflexivity|]). reflexivity.
  - repeat (split; [reflexivity|]). reflexivity.
Qed.

(* __frcti_snd *)
Lemma snd_core : forall f now rnd f' h, frcti_snd f now rnd = Ok (f', h) ->
  f_rtx (snd_cr f) = true ->
  let s := if snd_inactive f now then w32 rnd else seqno (snd_cr f) in
  let l := if snd_inactive f now then w32 rnd else lwe (snd_cr f) in
  (snd_inactive f now = true -> seqno (snd_cr f) = lwe (snd_cr f)) /\
  core_snd f' = (l, w32 (s + 1), now, inact (snd_cr f), true) /\
  core_rcv f' = core_rcv f /\ core_cfg f' = core_cfg f /\
  p_data h = true /\ p_rdvs h = false /\ p_seqno h = s /\
  p_drf h = (seqno (snd_cr f) =? lwe (snd_cr f)) /\
  (p_ack h = true -> p_ackno h = lwe (rcv_cr f) /\
     (sec now - sec (act (rcv_cr f))) * BILLION <= a f).
Proof.
  intros f now rnd f' h E Hr s l.
  unfold frcti_snd in E. rewrite Hr in E.
  destruct (snd_inactive f now) eqn:I.
  - destruct (seqno (snd_cr f) =? lwe (snd_cr f)) eqn:Q; cbn [negb andb] in E; [|discriminate E].
    injection E as E1 E2. split; [intros _; apply Z.eqb_eq; exact Q|].
    subst f' h. destruct (negb (probe f)); cbn [andb];
      destruct ((sec now - sec (act (rcv_cr f))) * BILLION <=? a f) eqn:Ak;
      do 7 (split; [try reflexivity; unfold core_snd, core_rcv, core_cfg; cbn; rewrite ?Hr, ?Q; reflexivity|]); cbn;
      intros Hx; try discriminate; (split; [reflexivity | lia]).
  - cbn [andb] in E. injection E as E1 E2. split; [intros; discriminate|].
    subst f' h. destruct (negb (probe f)); cbn [andb];
      destruct ((sec now - sec (act (rcv_cr f))) * BILLION <=? a f) eqn:Ak;
      do 7 (split; [try reflexivity; unfold core_snd, core_rcv, core_cfg; cbn; rewrite ?Hr; reflexivity|]); cbn;
      intros Hx; try discriminate; (split; [reflexivity | lia]).
Qed.

Lemma rcv_ack_core : forall f now p,
  core_rcv (rcv_ack f now p) = core_rcv f /\ core_cfg (rcv_ack f now p) = core_cfg f /\
  core_snd (rcv_ack f now p) =
    (if p_ack p && after (p_ackno p) (lwe (snd_cr f)) then p_ackno p else lwe (snd_cr f),
     seqno (snd_cr f), act (snd_cr f), inact (snd_cr f), f_rtx (snd_cr f)).
Proof.
  intros. unfold rcv_ack, rtt_estimator. destruct (p_ack p); [|repeat split].
  destruct (after (p_ackno p) (lwe (snd_cr f))); destruct (probe f && after (p_ackno p) (rttseq f));
    cbn [andb]; try (repeat split; fail);
    match goal with |- context [srtt ?g =? 0] => destruct (srtt g =? 0) end; repeat split.
Qed.

Lemma rcv_fc_core : forall f p,
  core_snd (rcv_fc f p) = core_snd f /\ core_rcv (rcv_fc f p) = core_rcv f /\
  core_cfg (rcv_fc f p) = core_cfg f.
Proof.
  intros. unfold rcv_fc. destruct (p_fc p); [|repeat split].
  match goal with |- context [if ?b then _ else _] => destruct b end; repeat split.
Qed.

(* The outcome of a data packet for the receive side: nothing changes
   but, possibly, one free slot of the queue. *)
Definition stores (f : frcti) (p : pci) (d : data) (q : list (option data)) : Prop :=
  p_data p = true /\ before (p_seqno p) (lwe (rcv_cr f)) = false /\
  before (p_seqno p) (w32 (lwe (rcv_cr f) + RQ_SIZE)) = true /\
  rq_get (rq f) (slot (p_seqno p)) = None /\
  q = rq_set (rq f) (slot (p_seqno p)) (Some d).

Lemma drop_core : forall f now f' t out, drop f now = (f', t, out) ->
  t = Dropped /\
  core_snd f' = core_snd f /\ core_rcv f' = core_rcv f /\ core_cfg f' = core_cfg f /\
  (forall p, In p out -> p_data p = false /\ p_drf p = false /\ (p_ack p = true ->
     p_ackno p = lwe (rcv_cr f) /\ now - act (rcv_cr f) <= a f)).
Proof.
  intros f now f' t out. unfold drop. destruct (send_frct_pkt f now) as [g o] eqn:E.
  intros H; injection H as <- <- <-.
  destruct (send_frct_pkt_core f now g o E) as (A1 & A2 & A3 & A4).
  split; [reflexivity|]. split; [exact A1|]. split; [exact A2|]. split; [exact A3|].
  intros p Hp. destruct (A4 p Hp) as (B1 & B2 & B3 & B4 & B5). auto.
Qed.

Lemma rcv_data_core : forall f now p d f' t out, rcv_data f now p d = (f', t, out) ->
  f_rtx (rcv_cr f) = true ->
  core_snd f' = core_snd f /\ core_cfg f' = core_cfg f /\
  (core_rcv f' = core_rcv f \/
   exists q, stores f p d q /\
     core_rcv f' = (lwe (rcv_cr f), act (rcv_cr f), inact (rcv_cr f), true, q)) /\
  (forall p, In p out -> p_data p = false /\ p_drf p = false /\ (p_ack p = true ->
     p_ackno p = lwe (rcv_cr f) /\ now - act (rcv_cr f) <= a f)).
Proof.
  intros f now p d f' t out E Hr. unfold rcv_data in E.
  destruct (p_data p) eqn:Pd; cbn [negb] in E.
  2:{ destruct (drop_core _ _ _ _ _ E) as (_ & H1 & H2 & H3 & H4). auto. }
  destruct (before (p_seqno p) (lwe (rcv_cr f))) eqn:B1.
  { destruct (drop_core _ _ _ _ _ E) as (_ & H1 & H2 & H3 & H4).
    split; [exact H1|]. split; [exact H3|]. split; [left; exact H2|]. exact H4. }
  rewrite Hr in E.
  destruct (before (p_seqno p) (rwe (rcv_cr f))) eqn:B2; cbn [negb] in E.
  2:{ destruct (drop_core _ _ _ _ _ E) as (_ & H1 & H2 & H3 & H4). auto. }
  destruct (before (p_seqno p) (w32 (lwe (rcv_cr f) + RQ_SIZE))) eqn:B3; cbn [negb] in E.
  2:{ destruct (drop_core _ _ _ _ _ E) as (_ & H1 & H2 & H3 & H4). auto. }
  destruct (rq_get (rq f) (slot (p_seqno p))) eqn:Q.
  { destruct (drop_core _ _ _ _ _ E) as (_ & H1 & H2 & H3 & H4). auto. }
  injection E as <- <- <-. split; [reflexivity|]. split; [reflexivity|].
  split; [|intros x []]. right. eexists. split; [unfold stores; eauto 10|].
  unfold core_rcv. cbn. rewrite Hr. reflexivity.
Qed.

(* __frcti_rcv, once the packet counts as activity. *)
Lemma rcv_active_core : forall f now p d f' t out, rcv_active f now p d = (f', t, out) ->
  f_rtx (rcv_cr f) = true ->
  (exists l, core_snd f' = (l, seqno (snd_cr f), act (snd_cr f), inact (snd_cr f), f_rtx (snd_cr f)) /\
     (l = lwe (snd_cr f) \/ (p_ack p = true /\ after (p_ackno p) (lwe (snd_cr f)) = true /\ l = p_ackno p))) /\
  core_cfg f' = core_cfg f /\
  (core_rcv f' = (lwe (rcv_cr f), now, inact (rcv_cr f), true, rq f) \/
   exists q, stores f p d q /\
     core_rcv f' = (lwe (rcv_cr f), now, inact (rcv_cr f), true, q)) /\
  (forall p, In p out -> p_data p = false /\ p_drf p = false /\ (p_ack p = true ->
     p_ackno p = lwe (rcv_cr f) /\ 0 <= a f)).
Proof.
  intros f now p d f' t out E Hr. unfold rcv_active in E.
  set (f1 := with_rcv f (cr_act (rcv_cr f) now)) in *.
  destruct (p_rdvs p).
  { injection E as <- <- <-. split; [exists (lwe (snd_cr f)); split; [reflexivity | auto]|].
    split; [reflexivity|]. split; [left; unfold f1, core_rcv; cbn; rewrite Hr; reflexivity|].
    intros x [<- | []]. cbn. repeat split; intros; discriminate. }
  destruct (rcv_ack_core f1 now p) as (A1 & A2 & A3).
  destruct (rcv_fc_core (rcv_ack f1 now p) p) as (B1 & B2 & B3).
  set (f2 := rcv_fc (rcv_ack f1 now p) p) in *.
  assert (C : core_rcv f2 = (lwe (rcv_cr f), now, inact (rcv_cr f), true, rq f)).
  { rewrite B2, A1. unfold f1, core_rcv. cbn. rewrite Hr. reflexivity. }
  injection C as C1 C2 C3 C4 C5.
  assert (Cf : core_cfg f2 = core_cfg f) by (rewrite B3, A2; reflexivity).
  injection Cf as Cf1 Cf2 Cf3.
  destruct (rcv_data_core _ _ _ _ _ _ _ E C4) as (D1 & D2 & D3 & D4).
  split; [|split; [|split]].
  - rewrite D1, B1, A3. cbn [f1 with_rcv snd_cr].
    eexists. split; [reflexivity|].
    destruct (p_ack p) eqn:Pa; cbn [andb]; [|left; reflexivity].
    destruct (after (p_ackno p) (lwe (snd_cr f))) eqn:Af; [right; auto | left; reflexivity].
  - rewrite D2. unfold core_cfg. rewrite Cf1, Cf2, Cf3. reflexivity.
  - destruct D3 as [D3 | (q & Q1 & Q2)].
    + left. rewrite D3. unfold core_rcv. rewrite C1, C2, C3, C4, C5. reflexivity.
    + right. exists q. split.
      * unfold stores in *. rewrite C1, C5 in Q1. exact Q1.
      * rewrite Q2, C1, C2, C3. reflexivity.
  - intros x Hx. destruct (D4 x Hx) as (X1 & X2 & X3). split; [exact X1|]. split; [exact X2|].
    intros Y. destruct (X3 Y) as (Y1 & Y2). rewrite C1 in Y1. rewrite C2, Cf2 in Y2.
    split; [exact Y1 | lia].
Qed.

(* __frcti_rcv.  l0 is the left window edge after a new run is taken up. *)
Lemma frcti_rcv_core : forall f now p d f' t out, frcti_rcv f now p d = (f', t, out) ->
  f_rtx (rcv_cr f) = true -> 0 <= a f ->
  (exists l, core_snd f' = (l, seqno (snd_cr f), act (snd_cr f), inact (snd_cr f), f_rtx (snd_cr f)) /\
     (l = lwe (snd_cr f) \/ (p_ack p = true /\ after (p_ackno p) (lwe (snd_cr f)) = true /\ l = p_ackno p))) /\
  core_cfg f' = core_cfg f /\
  ((rcv_inactive f now = true /\ p_drf p = false /\ p_data p = true /\
    core_rcv f' = core_rcv f /\
    (forall p, In p out -> p_data p = false /\ p_drf p = false /\ (p_ack p = true ->
       p_ackno p = lwe (rcv_cr f) /\ now - act (rcv_cr f) <= a f)))
   \/
   (exists l0, (l0 = lwe (rcv_cr f) \/ (rcv_inactive f now = true /\ p_drf p = true /\ l0 = p_seqno p)) /\
    (rcv_inactive f now = true -> p_drf p = false -> p_data p = false) /\
    (rcv_inactive f now = true -> p_drf p = true -> l0 = p_seqno p) /\
    (core_rcv f' = (l0, now, inact (rcv_cr f), true, rq f) \/
     exists q,
       (p_data p = true /\ before (p_seqno p) l0 = false /\
        before (p_seqno p) (w32 (l0 + RQ_SIZE)) = true /\
        rq_get (rq f) (slot (p_seqno p)) = None /\
        q = rq_set (rq f) (slot (p_seqno p)) (Some d)) /\
       core_rcv f' = (l0, now, inact (rcv_cr f), true, q)) /\
    (forall p, In p out -> p_data p = false /\ p_drf p = false /\ (p_ack p = true ->
       p_ackno p = l0)))).
Proof.
  intros f now p d f' t out E Hr Ha. unfold frcti_rcv in E.
  destruct (rcv_inactive f now) eqn:I.
  - destruct (p_drf p) eqn:Dr.
    + destruct (rcv_active_core _ _ _ _ _ _ _ E) as (A1 & A2 & A3 & A4); [exact Hr|].
      split; [exact A1|]. split; [exact A2|]. right. exists (p_seqno p).
      split; [right; auto|]. split; [intros _ X; discriminate|]. split; [auto|].
      split.
      * destruct A3 as [A3 | (q & Q1 & Q2)]; [left; exact A3|]. right. exists q.
        split; [exact Q1 | exact Q2].
      * intros x Hx. destruct (A4 x Hx) as (X1 & X2 & X3). split; [exact X1|]. split; [exact X2|].
        intros Y. destruct (X3 Y) as [Y1 _]. exact Y1.
    + destruct (p_data p) eqn:Pd.
      * destruct (drop_core _ _ _ _ _ E) as (_ & H1 & H2 & H3 & H4).
        split; [exists (lwe (snd_cr f)); split; [exact H1 | auto]|].
        split; [exact H3|]. left. auto.
      * destruct (rcv_active_core _ _ _ _ _ _ _ E) as (A1 & A2 & A3 & A4); [exact Hr|].
        split; [exact A1|]. split; [exact A2|]. right. exists (lwe (rcv_cr f)).
        split; [auto|]. split; [auto|]. split; [intros; discriminate|].
        split.
        -- destruct A3 as [A3 | (q & Q1 & Q2)]; [left; exact A3|]. right. exists q.
           split; [unfold stores in Q1; rewrite Pd in Q1; exact Q1 | exact Q2].
        -- intros x Hx. destruct (A4 x Hx) as (X1 & X2 & X3). split; [exact X1|]. split; [exact X2|].
           intros Y. destruct (X3 Y) as [Y1 _]. exact Y1.
  - destruct (rcv_active_core _ _ _ _ _ _ _ E) as (A1 & A2 & A3 & A4); [exact Hr|].
    split; [exact A1|]. split; [exact A2|]. right. exists (lwe (rcv_cr f)).
    split; [auto|]. split; [intros; discriminate|]. split; [intros; discriminate|].
    split.
    + destruct A3 as [A3 | (q & Q1 & Q2)]; [left; exact A3|]. right. exists q.
      split; [exact Q1 | exact Q2].
    + intros x Hx. destruct (A4 x Hx) as (X1 & X2 & X3). split; [exact X1|]. split; [exact X2|].
      intros Y. destruct (X3 Y) as [Y1 _]. exact Y1.
Qed.

Lemma rxm_fire_core : forall f now e full wr,
  match rxm_fire f now e full wr with
  | Acked => before (x_seqno e) (lwe (snd_cr f)) = true
  | Down => True
  | Later f' => core_snd f' = core_snd f /\ core_rcv f' = core_rcv f /\ core_cfg f' = core_cfg f
  | Sent f' p => core_snd f' = core_snd f /\ core_rcv f' = core_rcv f /\ core_cfg f' = core_cfg f /\
      p = set_ackno (x_hdr e) (lwe (rcv_cr f)) /\ now - x_t0 e <= r f
  end.
Proof.
  intros. unfold rxm_fire. destruct (before (x_seqno e) (lwe (snd_cr f))) eqn:E1; [reflexivity|].
  destruct (now - x_t0 e >? r f) eqn:E2; [exact I|].
  destruct (x_seqno e =? rttseq f);
    match goal with |- context [if ?b then Down else _] => destruct b end; try exact I;
    destruct full; try (repeat split; fail); destruct wr; try exact I;
    repeat (split; [reflexivity|]); lia.
Qed.

(* ---- Sequence numbers ---- *)

Lemma w32_mod256 : forall x, w32 x mod RQ_SIZE = x mod RQ_SIZE.
Proof.
  intros. unfold w32, two32, RQ_SIZE. change (2 ^ 32) with (256 * 16777216).
  rewrite Z.rem_mul_r by lia. rewrite Z.mul_comm, Z.mod_add by lia.
  apply Z.mod_mod. lia.
Qed.

Lemma w32_add : forall x y, w32 (w32 x + y) = w32 (x + y).
Proof. intros. unfold w32. rewrite Zplus_mod_idemp_l. reflexivity. Qed.

Lemma w32_inj : forall x y, w32 x = w32 y -> Z.abs (x - y) < two32 -> x = y.
Proof.
  intros x y E H. unfold w32, two32 in *. change (2 ^ 32) with 4294967296 in *.
  pose proof (Z.div_mod x 4294967296). pose proof (Z.div_mod y 4294967296). lia.
Qed.

Lemma before_w32 : forall x y, Z.abs (x - y) < 2 ^ 31 -> before (w32 x) (w32 y) = (x <? y).
Proof. exact before_true. Qed.
Lemma after_w32 : forall x y, Z.abs (x - y) < 2 ^ 31 -> after (w32 x) (w32 y) = (x >? y).
Proof. exact after_true. Qed.

Lemma slot_w32 : forall x, slot (w32 x) = slot x.
Proof. intros. unfold slot. rewrite w32_mod256. reflexivity. Qed.

Lemma slot_inj : forall x y, slot x = slot y -> Z.abs (x - y) < RQ_SIZE -> x = y.
Proof.
  intros x y E H. unfold slot, RQ_SIZE in *.
  pose proof (Z.mod_pos_bound x 256). pose proof (Z.mod_pos_bound y 256).
  assert (E' : x mod 256 = y mod 256) by lia.
  pose proof (Z.div_mod x 256). pose proof (Z.div_mod y 256). lia.
Qed.

Lemma slot_lt : forall x, (slot x < Z.to_nat RQ_SIZE)%nat.
Proof. intros. unfold slot, RQ_SIZE. pose proof (Z.mod_pos_bound x 256). lia. Qed.

Lemma rq_set_length : forall q n x, length (rq_set q n x) = length q.
Proof. induction q; destruct n; cbn; intros; auto. Qed.

Lemma rq_get_set_same : forall q n x, (n < length q)%nat -> rq_get (rq_set q n x) n = x.
Proof.
  unfold rq_get. induction q; intros n x H; cbn in H; [lia|].
  destruct n; cbn; [reflexivity|]. apply IHq. lia.
Qed.

Lemma rq_get_set_other : forall q n m x, n <> m -> rq_get (rq_set q n x) m = rq_get q m.
Proof.
  unfold rq_get. induction q; intros n m x H; cbn; [destruct n; reflexivity|].
  destruct n, m; cbn; try reflexivity; try congruence. apply IHq. congruence.
Qed.

(* ---- Time ---- *)

Lemma sec_le : forall t, sec t * BILLION <= t < sec t * BILLION + BILLION.
Proof.
  intros. unfold sec, BILLION. pose proof (Z.div_mod t 1000000000).
  pose proof (Z.mod_pos_bound t 1000000000). lia.
Qed.

(* Nothing was received for at least the time x (in seconds) and another
   second. *)
Lemma idle : forall now t x, sec now - sec t > x + 1 -> now - t > (x + 1) * BILLION.
Proof. intros. pose proof (sec_le now). pose proof (sec_le t). unfold BILLION in *. nia. Qed.

Lemma idle_mono : forall now now' t x, now <= now' -> sec now - sec t > x -> sec now' - sec t > x.
Proof.
  intros. unfold sec, BILLION in *.
  pose proof (Z.div_le_mono now now' 1000000000). lia.
Qed.
