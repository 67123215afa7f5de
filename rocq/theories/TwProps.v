(* C43: retransmission timers. *)
From Coq Require Import ZArith List Bool Lia ZifyBool.
From Verif Require Import SeqNoModel TwModel TwProofs.
Import ListNotations.
Open Scope Z_scope.

(* The resolution of the wheel for a time-out: 1 ms, 17 ms or 268 ms. *)
Definition resolution (rto : Z) : Z :=
  if rto <? 2 ^ 28 then 2 ^ 20 else if rto <? 2 ^ 32 then 2 ^ 24 else 2 ^ 28.

(* Since the wheel last moved (m) and until the time-out there is less than
   a turn of the wheel. *)
Definition in_range (m t rto : Z) : Prop :=
  0 <= rto < 2 ^ 36 /\ t / resolution rto - m / resolution rto + rto / resolution rto <= 255.

Definition out_in_range (m now : Z) (o : outcome) : Prop :=
  match o with Resent rto | Delayed rto => in_range m now rto | _ => True end.

(* Every history of a wheel that is driven: the clock does not go back, and
   the wheel moves before it would have turned once (268 ms; it is moved
   every 5 ms).  m is when it last moved.  The flows change in any way
   between (acknowledgements, new time-outs, flows that go). *)
Inductive driven : wheel -> Z -> Prop :=
| dr_init : forall now fl, driven (timerwheel_init now fl) (now - 2 ^ 20)
| dr_put : forall w m flow seqno t rto w' b, driven w m -> m <= t -> in_range m t rto ->
    timerwheel_rxm w flow seqno t rto = (w', b) -> driven w' m
| dr_flows : forall w m fl, driven w m -> driven (Wheel (rxms w) (prv_rxm w) fl) m
| dr_move : forall w m env now w' os, driven w m -> m <= now -> now / 2 ^ 20 - m / 2 ^ 20 < 256 ->
    timerwheel_move env now w = (w', os) -> Forall (fun p => out_in_range m now (snd p)) os ->
    driven w' now.

Definition on_wheel (w : wheel) (e : rxm) : Prop := exists l x, In e (rxms w l x).

Lemma aslot_div : forall l t, 0 <= l -> aslot l t = t / 2 ^ (20 + 4 * l).
Proof. intros. unfold aslot. apply Z.shiftr_div_pow2. lia. Qed.

Lemma place_res : forall t rto l x, place t rto = Some (l, x) -> 0 <= rto ->
  0 <= l < 3 /\ 2 ^ (20 + 4 * l) = resolution rto.
Proof.
  intros t rto l x E H. unfold place, RXMQ_RES, RXMQ_BUMP, RXMQ_SLOTS in E.
  rewrite !Z.shiftr_shiftr in E by lia. change (20 + 4) with 24 in E. change (24 + 4) with 28 in E.
  rewrite !Z.shiftr_div_pow2 in E by lia. unfold resolution.
  destruct (rto / 2 ^ 20 <? 256) eqn:C0.
  { apply some_pair in E. destruct E as [-> _]. split; [lia|].
    replace (rto <? 2 ^ 28) with true; [reflexivity|].
    symmetry. apply Z.ltb_lt. apply Z.ltb_lt in C0.
    pose proof (Z.div_mod rto (2 ^ 20) ltac:(lia)). pose proof (Z.mod_pos_bound rto (2 ^ 20) ltac:(lia)). lia. }
  assert (K0 : 2 ^ 28 <= rto).
  { apply Z.ltb_ge in C0. pose proof (Z.div_mod rto (2 ^ 20) ltac:(lia)).
    pose proof (Z.mod_pos_bound rto (2 ^ 20) ltac:(lia)). lia. }
  replace (rto <? 2 ^ 28) with false by lia.
  destruct (rto / 2 ^ 24 <? 256) eqn:C1.
  { apply some_pair in E. destruct E as [-> _]. split; [lia|].
    replace (rto <? 2 ^ 32) with true; [reflexivity|].
    symmetry. apply Z.ltb_lt. apply Z.ltb_lt in C1.
    pose proof (Z.div_mod rto (2 ^ 24) ltac:(lia)). pose proof (Z.mod_pos_bound rto (2 ^ 24) ltac:(lia)). lia. }
  assert (K1 : 2 ^ 32 <= rto).
  { apply Z.ltb_ge in C1. pose proof (Z.div_mod rto (2 ^ 24) ltac:(lia)).
    pose proof (Z.mod_pos_bound rto (2 ^ 24) ltac:(lia)). lia. }
  replace (rto <? 2 ^ 32) with false by lia.
  destruct (rto / 2 ^ 28 <? 256) eqn:C2; [|discriminate].
  apply some_pair in E. destruct E as [-> _]. split; [lia | reflexivity].
Qed.

Lemma place_some : forall t rto, 0 <= rto < 2 ^ 36 -> exists l x, place t rto = Some (l, x).
Proof.
  intros t rto H. unfold place, RXMQ_RES, RXMQ_BUMP, RXMQ_SLOTS.
  rewrite !Z.shiftr_shiftr by lia. change (20 + 4) with 24. change (24 + 4) with 28.
  rewrite !Z.shiftr_div_pow2 by lia.
  destruct (rto / 2 ^ 20 <? 256); [eauto|]. destruct (rto / 2 ^ 24 <? 256); [eauto|].
  assert (rto / 2 ^ 28 < 256) by (apply Z.div_lt_upper_bound; lia).
  replace (rto / 2 ^ 28 <? 256) with true by lia. eauto.
Qed.

Definition pointers (m : Z) : Z -> Z := fun l => aslot l m.

Lemma in_range_good : forall m now o, out_in_range m now o -> good (pointers m) now o.
Proof.
  intros m now o H. assert (G : forall rto, in_range m now rto ->
    0 <= rto /\ (forall l x, place now rto = Some (l, x) -> aslot l now - pointers m l + aslot l rto <= 255)).
  { intros rto [H1 H2]. split; [lia|]. intros l x Pl.
    destruct (place_res _ _ _ _ Pl ltac:(lia)) as [L R]. unfold pointers. rewrite !aslot_div by lia. rewrite R. exact H2. }
  destruct o; cbn in *; auto.
Qed.

Lemma aslot_mono : forall l a b, 0 <= l -> a <= b -> aslot l a <= aslot l b.
Proof. intros. rewrite !aslot_div by lia. apply Z.div_le_mono; [apply Z.pow_pos_nonneg; lia | lia]. Qed.

Lemma gap_all : forall m now, m <= now -> now / 2 ^ 20 - m / 2 ^ 20 < 256 ->
  forall l, 0 <= l < 3 -> aslot l now - aslot l m < 256.
Proof.
  intros m now H G l Hl. rewrite !aslot_div by lia.
  rewrite Z.pow_add_r by lia. rewrite <- !Z.div_div by (try apply Z.pow_pos_nonneg; lia).
  assert (M : m / 2 ^ 20 <= now / 2 ^ 20) by (apply Z.div_le_mono; lia).
  generalize dependent (now / 2 ^ 20). generalize (m / 2 ^ 20). intros a b G M.
  assert (K : 0 < 2 ^ (4 * l)) by (apply Z.pow_pos_nonneg; lia).
  assert (K1 : 1 <= 2 ^ (4 * l)) by lia. generalize dependent (2 ^ (4 * l)). intros k K K1.
  assert (b / k <= (a + 255) / k) by (apply Z.div_le_mono; lia).
  assert ((a + 255) / k <= a / k + 255).
  { rewrite <- Z.div_add by lia. apply Z.div_le_mono; [lia|]. nia. }
  lia.
Qed.

Lemma timerwheel_move_did : forall env now w w' os m,
  inv (pointers m) w -> (forall l, 0 <= l < 3 -> prv_rxm w l = aslot l m mod 256) ->
  m <= now -> now / 2 ^ 20 - m / 2 ^ 20 < 256 ->
  timerwheel_move env now w = (w', os) -> Forall (fun p => out_in_range m now (snd p)) os ->
  exists w1, did now (pointers m) (pointers now) w w1 os /\ rxms w' = rxms w1 /\ fcbs w' = fcbs w1 /\
    (forall l, 0 <= l < 3 -> prv_rxm w' l = aslot l now mod 256).
Proof.
  intros env now w w' os m I Pv Hm Gap E Rg. unfold timerwheel_move, RXMQ_RES, RXMQ_BUMP in E.
  rewrite !Z.shiftr_shiftr in E by lia.
  change (Z.shiftr now 20) with (aslot 0 now) in E.
  change (Z.shiftr now (20 + 4)) with (aslot 1 now) in E.
  change (Z.shiftr now (20 + 4 + 4)) with (aslot 2 now) in E.
  destruct (level env now 0 (aslot 0 now) w) as [w0 o0] eqn:E0.
  destruct (level env now 1 (aslot 1 now) w0) as [w1 o1] eqn:E1.
  destruct (level env now 2 (aslot 2 now) w1) as [w2 o2] eqn:E2.
  injection E as <- <-.
  assert (Gd : Forall (fun p => good (pointers m) now (snd p)) (o0 ++ o1 ++ o2)).
  { eapply Forall_impl; [|exact Rg]. intros p. apply in_range_good. }
  apply Forall_app in Gd. destruct Gd as [G0 Gd]. apply Forall_app in Gd. destruct Gd as [G1 G2].
  pose proof (gap_all m now Hm Gap) as Gp.
  assert (Q0 : forall l, 0 <= l < 3 -> pointers m l <= aslot l now) by (intros; apply aslot_mono; lia).
  destruct (level_spec _ _ _ _ _ _ _ E0 I ltac:(lia) (Pv 0 ltac:(lia)) Q0 (Gp 0 ltac:(lia)) G0)
    as (v0 & D0 & X0 & Y0 & Z0).
  set (P1 := put1 (pointers m) 0 (aslot 0 now)) in *.
  assert (Le1 : forall l, pointers m l <= P1 l).
  { intros l. unfold P1, put1. destruct (Z.eqb_spec l 0) as [X|X]; [subst l; apply (Q0 0); lia | lia]. }
  assert (Q1 : forall l, 0 <= l < 3 -> P1 l <= aslot l now).
  { intros l Hl. unfold P1, put1. destruct (Z.eqb_spec l 0) as [X|X]; [subst l; lia | auto]. }
  assert (I1 : inv P1 w0) by (intros l x e He; rewrite X0 in He; apply (d_inv _ _ _ _ _ _ D0); exact He).
  assert (Pv1 : prv_rxm w0 1 = P1 1 mod 256) by (rewrite Z0; apply (Pv 1); lia).
  destruct (level_spec _ _ _ _ _ _ _ E1 I1 ltac:(lia) Pv1 Q1 (Gp 1 ltac:(lia))) as (v1 & D1 & X1 & Y1 & Z1).
  { eapply Forall_impl; [|exact G1]. intros p. apply good_mono. exact Le1. }
  set (P2 := put1 P1 1 (aslot 1 now)) in *.
  assert (Le2 : forall l, P1 l <= P2 l).
  { intros l. unfold P2, put1. destruct (Z.eqb_spec l 1) as [X|X]; [subst l; apply (Q1 1); lia | lia]. }
  assert (Q2 : forall l, 0 <= l < 3 -> P2 l <= aslot l now).
  { intros l Hl. unfold P2, put1. destruct (Z.eqb_spec l 1) as [X|X]; [subst l; lia | auto]. }
  assert (I2 : inv P2 w1) by (intros l x e He; rewrite X1 in He; apply (d_inv _ _ _ _ _ _ D1); exact He).
  assert (Pv2 : prv_rxm w1 2 = P2 2 mod 256) by (rewrite Z1, Z0; apply (Pv 2); lia).
  destruct (level_spec _ _ _ _ _ _ _ E2 I2 ltac:(lia) Pv2 Q2 (Gp 2 ltac:(lia))) as (v2 & D2 & X2 & Y2 & Z2).
  { eapply Forall_impl; [|exact G2]. intros p. apply good_mono. intros l. specialize (Le1 l). specialize (Le2 l). lia. }
  set (P3 := put1 P2 2 (aslot 2 now)) in *.
  assert (Le3 : forall l, P2 l <= P3 l).
  { intros l. unfold P3, put1. destruct (Z.eqb_spec l 2) as [X|X]; [subst l; apply (Q2 2); lia | lia]. }
  assert (Q3 : forall l, 0 <= l < 3 -> P3 l <= aslot l now).
  { intros l Hl. unfold P3, put1. destruct (Z.eqb_spec l 2) as [X|X]; [subst l; lia | auto]. }
  exists (Wheel (rxms v2) (prv_rxm w) (fcbs v2)). cbn [rxms fcbs]. split; [|split; [exact X2|split; [exact Y2|]]].
  - assert (Sw' : forall P P' a b o pv, did now P P' a b o ->
              did now P P' (Wheel (rxms a) pv (fcbs a)) (Wheel (rxms b) pv (fcbs b)) o).
    { intros P P' a b o pv [A1 A2 A3 A4 A5 A6 A7 A8]. constructor; cbn [rxms prv_rxm fcbs]; auto. }
    pose (pv := prv_rxm w).
    pose proof (Sw' _ _ _ _ _ pv D0) as K0. pose proof (Sw' _ _ _ _ _ pv D1) as K1. pose proof (Sw' _ _ _ _ _ pv D2) as K2.
    rewrite X0, Y0 in K1. rewrite X1, Y1 in K2.
    assert (T : did now (pointers m) P3 (Wheel (rxms w) pv (fcbs w)) (Wheel (rxms v2) pv (fcbs v2)) (o0 ++ o1 ++ o2)).
    { apply (did_trans _ _ P1 _ _ (Wheel (rxms v0) pv (fcbs v0))); auto.
      - intros l. specialize (Le2 l). specialize (Le3 l). lia.
      - apply (did_trans _ _ P2 _ _ (Wheel (rxms v1) pv (fcbs v1))); auto. }
    destruct T as [A1 A2 A3 A4 A5 A6 A7 A8]. cbn [rxms prv_rxm fcbs] in *.
    assert (PE : forall l, 0 <= l < 3 -> P3 l = pointers now l).
    { intros l Hl. unfold P3, P2, P1, put1, pointers.
      destruct (Z.eqb_spec l 2) as [X|X]; [now subst|]. destruct (Z.eqb_spec l 1) as [X'|X']; [now subst|].
      destruct (Z.eqb_spec l 0) as [X''|X'']; [now subst|]. lia. }
    constructor; auto.
    + intros l x e He. destruct (A1 l x e He) as (J1 & J2 & J3). destruct (place_res _ _ _ _ J1 J2) as [L _].
      rewrite <- (PE l L). auto.
    + intros r o H. destruct (A4 r o H) as (l & x & J1 & J2 & J3). exists l, x.
      destruct (place_res _ _ _ _ J1 J2) as [L _]. rewrite <- (PE l L). auto.
  - intros l Hl. rewrite Z2, Z1, Z0. destruct (Z.eqb_spec l 2) as [X|X]; [now subst|].
    destruct (Z.eqb_spec l 1) as [X'|X']; [now subst|]. destruct (Z.eqb_spec l 0) as [X''|X'']; [now subst|]. lia.
Qed.

Lemma driven_inv : forall w m, driven w m ->
  inv (pointers m) w /\ (forall l, 0 <= l < 3 -> prv_rxm w l = aslot l m mod 256).
Proof.
  intros w m D. induction D as [now fl|w m flow seqno t rto w' b D IH Hm R E|w m fl D IH|w m env now w' os D IH Hm Gap E Rg].
  - split; [intros l x e []|]. intros l Hl. unfold timerwheel_init. cbn [prv_rxm]. rewrite land255. unfold RXMQ_RES, RXMQ_BUMP.
    f_equal. unfold aslot. rewrite <- Z.shiftr_shiftr by lia. f_equal.
    rewrite !Z.shiftr_div_pow2 by lia. replace (now - 2 ^ 20) with (now + (-1) * 2 ^ 20) by lia.
    rewrite Z.div_add by lia. lia.
  - destruct IH as [I Pv]. unfold timerwheel_rxm in E. destruct R as [R1 R2].
    destruct (place t rto) as [[l x]|] eqn:Pl; injection E as <- <-; [|auto].
    split; [|exact Pv]. intros l' x' e He. cbn [rxms] in He. unfold put in He.
    destruct ((l' =? l) && (x' =? x)) eqn:C; [|apply I; exact He].
    apply andb_true_iff in C. destruct C as [C1 C2]. apply Z.eqb_eq in C1, C2. subst l' x'.
    apply in_app_iff in He. destruct He as [He | [<- | []]]; [apply I; exact He|].
    cbn [r_at r_rto]. split; [exact Pl|]. split; [lia|]. unfold due. cbn [r_at r_rto].
    destruct (place_res _ _ _ _ Pl ltac:(lia)) as [L Re]. unfold pointers. rewrite !aslot_div by lia. rewrite Re.
    assert (0 < resolution rto) by (rewrite <- Re; apply Z.pow_pos_nonneg; lia).
    assert (m / resolution rto <= t / resolution rto) by (apply Z.div_le_mono; lia).
    assert (0 <= rto / resolution rto) by (apply Z.div_pos; lia). lia.
  - exact IH.
  - destruct IH as [I Pv]. split.
    + destruct (timerwheel_move_did env now w w' os m I Pv Hm Gap E Rg) as (w1 & D1 & X1 & X2 & X3).
      intros l x e He. rewrite X1 in He. apply (d_inv _ _ _ _ _ _ D1). exact He.
    + destruct (timerwheel_move_did env now w w' os m I Pv Hm Gap E Rg) as (w1 & D1 & X1 & X2 & X3). exact X3.
Qed.

(* C43, the part that holds, for every history of a driven wheel and every
   move of it:
   - what is handled was put on the wheel with a time-out that has passed,
     to within one resolution;
   - what is left on the wheel has a time-out that has not passed, to within
     one resolution;
   - everything on the wheel is handled or stays, and what was resent is on
     the wheel with the new time-out;
   - what is resent belongs to a flow that exists and was not acknowledged;
     only what was acknowledged, or whose flow is gone, is removed. *)
Theorem tw_deadlines_partial : forall w m env now w' os,
  driven w m -> m <= now -> now / 2 ^ 20 - m / 2 ^ 20 < 256 ->
  timerwheel_move env now w = (w', os) -> Forall (fun p => out_in_range m now (snd p)) os ->
  (forall r o, In (r, o) os -> r_at r + r_rto r - resolution (r_rto r) < now) /\
  (forall e, on_wheel w' e -> now < r_at e + r_rto e + resolution (r_rto e)) /\
  (forall e, on_wheel w e -> on_wheel w' e \/ exists o, In (e, o) os) /\
  (forall r o rto, In (r, o) os -> again o = Some rto ->
     on_wheel w' (renew r now rto) /\ alive (fcbs w (r_flow r)) = true /\
     before (r_seqno r) (snd_lwe (fcbs w (r_flow r))) = false) /\
  (forall r, In (r, Removed) os ->
     alive (fcbs w (r_flow r)) = false \/ before (r_seqno r) (snd_lwe (fcbs w (r_flow r))) = true).
Proof.
  intros w m env now w' os D Hm Gap E Rg.
  destruct (driven_inv w m D) as [I Pv].
  destruct (timerwheel_move_did env now w w' os m I Pv Hm Gap E Rg) as (w1 & [A1 A2 A3 A4 A5 A6 A7 A8] & X1 & X2 & X3).
  assert (Div : forall a b, 0 < b -> b * (a / b) <= a < b * (a / b) + b).
  { intros a b Hb. pose proof (Z.div_mod a b ltac:(lia)). pose proof (Z.mod_pos_bound a b Hb). lia. }
  assert (Rp : forall rto, 0 < resolution rto).
  { intros rto. unfold resolution. destruct (rto <? 2 ^ 28); [lia|]. destruct (rto <? 2 ^ 32); lia. }
  split; [|split; [|split; [|split]]].
  - intros r o H. destruct (A4 r o H) as (l & x & Pl & R0 & J).
    destruct (place_res _ _ _ _ Pl R0) as [L Re]. unfold due, pointers in J. rewrite !aslot_div in J by lia.
    rewrite Re in J. specialize (Rp (r_rto r)). set (R := resolution (r_rto r)) in *.
    pose proof (Div (r_at r) R Rp). pose proof (Div (r_rto r) R Rp). pose proof (Div now R Rp). nia.
  - intros e (l & x & He). rewrite X1 in He. destruct (A1 l x e He) as (Pl & R0 & J).
    destruct (place_res _ _ _ _ Pl R0) as [L Re]. unfold due, pointers in J. rewrite !aslot_div in J by lia.
    rewrite Re in J. specialize (Rp (r_rto e)). set (R := resolution (r_rto e)) in *.
    pose proof (Div (r_at e) R Rp). pose proof (Div (r_rto e) R Rp). pose proof (Div now R Rp). nia.
  - intros e (l & x & He). destruct (A7 l x e He) as [H|[o H]]; [|eauto].
    left. exists l, x. rewrite X1. exact H.
  - intros r o rto H Ag. destruct (A8 r o rto H Ag) as (l & x & H1). destruct (A5 r o H) as [H2 _].
    destruct (H2 ltac:(congruence)) as [H3 H4]. split; [|auto]. exists l, x. rewrite X1. exact H1.
  - intros r H. destruct (A5 r Removed H) as [_ H2]. auto.
Qed.
Print Assumptions tw_deadlines_partial.

(* A packet that is sent is put on the wheel. *)
Theorem tw_scheduled : forall w flow seqno t rto w' b,
  0 <= rto < 2 ^ 36 -> timerwheel_rxm w flow seqno t rto = (w', b) ->
  b = true /\ on_wheel w' (Rxm flow seqno t t rto) /\ (forall e, on_wheel w e -> on_wheel w' e).
Proof.
  intros w flow seqno t rto w' b R E. unfold timerwheel_rxm in E.
  destruct (place_some t rto R) as (l & x & Pl). rewrite Pl in E. injection E as <- <-.
  split; [reflexivity|]. split.
  - exists l, x. cbn [rxms]. unfold put. rewrite !Z.eqb_refl. cbn [andb]. apply in_app_iff. right. now left.
  - intros e (l' & x' & He). exists l', x'. cbn [rxms]. unfold put.
    destruct ((l' =? l) && (x' =? x)) eqn:C; [|exact He].
    apply andb_true_iff in C. destruct C as [C1 C2]. apply Z.eqb_eq in C1, C2. subst l' x'. apply in_app_iff. auto.
Qed.
Print Assumptions tw_scheduled.
