(* C68: delayed acknowledgements are sent, once and in time. *)
From Coq Require Import ZArith List Bool Lia ZifyBool.
From Verif Require Import TwModel TwProofs.
Import ListNotations.
Open Scope Z_scope.

Definition delay : Z := 2 * TICTIME.   (* 10 ms *)
Definition gran : Z := 2 ^ 18.         (* 0.26 ms *)

(* Every history of the wheel: the clock does not go back and the wheel
   moves before it has turned, m is when it moved last; each time there are
   the flows fl that have the descriptors. *)
Inductive ack_driven : acks -> Z -> Prop :=
| ad_init : forall now, ack_driven (acks_init now) (now - gran)
| ad_put : forall a m fd flow t, ack_driven a m -> m <= t -> (t + delay) / gran - m / gran <= 255 ->
    ack_driven (timerwheel_delayed_ack a fd flow t) m
| ad_move : forall a m fl now a' s, ack_driven a m -> m <= now -> now / gran - m / gran < 256 ->
    acks_move fl now a = (a', s) -> ack_driven a' now.

Definition waiting (a : acks) (e : ack) : Prop := exists x, In e (ackq a x).

Definition adue (e : ack) : Z := (a_at e + delay) / gran + 1.

Record ainv (P : Z) (a : acks) : Prop := {
  ai_due : forall x e, In e (ackq a x) -> x = adue e mod 256 /\ P < adue e <= P + 256;
  ai_map : forall x fd, amap a x fd = true <-> exists e, In e (ackq a x) /\ a_fd e = fd
}.

Lemma shr18 : forall t, Z.shiftr t ACKQ_RES = t / gran.
Proof. intros. unfold ACKQ_RES, gran. apply Z.shiftr_div_pow2. lia. Qed.

Lemma aland : forall x, Z.land x (ACKQ_SLOTS - 1) = x mod 256.
Proof. exact land255. Qed.

Lemma ack_all_spec : forall fl x l m m' s, ack_all fl x m l = (m', s) ->
  (forall e, In e s <-> In e l /\ fl (a_fd e) = Some (a_flow e)) /\
  (forall y fd, m' y fd = true <-> m y fd = true /\ ~ (y = x /\ exists e, In e l /\ a_fd e = fd)).
Proof.
  intros fl x. induction l as [|a l IH]; intros m m' s E; cbn [ack_all] in E.
  - injection E as <- <-. split; [cbn; tauto|]. intros y fd. split; [|tauto]. intros H. split; [exact H|].
    intros (_ & e & [] & _).
  - destruct (ack_all fl x (put m x (a_fd a) false) l) as [m1 s1] eqn:E1. injection E as <- <-.
    destruct (IH _ _ _ E1) as [I1 I2]. split.
    + intros e. destruct (fl (a_fd a)) as [f|] eqn:F; [destruct (Z.eqb_spec f (a_flow a)) as [X|X]|].
      * cbn [In]. rewrite I1. split; [intros [<-|H]; [split; [auto | congruence] | tauto] | tauto].
      * rewrite I1. cbn [In]. split; [tauto|]. intros [[<-|H] Y]; [congruence | auto].
      * rewrite I1. cbn [In]. split; [tauto|]. intros [[<-|H] Y]; [congruence | auto].
    + intros y fd. rewrite I2. unfold put. destruct (Z.eqb_spec y x) as [X|X]; cbn [andb].
      * destruct (Z.eqb_spec fd (a_fd a)) as [Y|Y].
        -- split; [intros [H _]; discriminate|]. intros [H1 H2]. exfalso. apply H2. split; [exact X|].
           exists a. cbn. auto.
        -- split; intros [H1 H2]; (split; [exact H1|]); intros (Z1 & e & H3 & H4); apply H2; (split; [exact X|]).
           ++ destruct H3 as [<-|H3]; [congruence|]. eauto.
           ++ exists e. cbn. auto.
      * split; intros [H1 H2]; (split; [exact H1|]); intros (Z1 & _); contradiction.
Qed.

Lemma ack_slots_spec : forall fl n j a a' s P, ack_slots fl j n a = (a', s) -> ainv P a ->
  P mod 256 = j mod 256 ->
  ainv (P + Z.of_nat n) a' /\ prv_ack a' = prv_ack a /\
  (forall e, In e s <-> waiting a e /\ adue e <= P + Z.of_nat n /\ fl (a_fd e) = Some (a_flow e)) /\
  (forall e, waiting a' e <-> waiting a e /\ P + Z.of_nat n < adue e).
Proof.
  intros fl. induction n as [|n IH]; intros j a a' s P E I M; cbn [ack_slots] in E.
  - injection E as <- <-. rewrite Z.add_0_r. split; [exact I|]. split; [reflexivity|]. split.
    + intros e. split; [intros []|]. intros ((x & H) & H2 & _). destruct (ai_due _ _ I x e H). lia.
    + intros e. split; [|tauto]. intros (x & H). split; [exists x; exact H|]. destruct (ai_due _ _ I x e H). lia.
  - rewrite aland in E.
    assert (MM : (j + 1) mod 256 = (P + 1) mod 256).
    { rewrite (Z.add_mod j 1), (Z.add_mod P 1), M by lia. reflexivity. }
    rewrite MM in E. set (x0 := (P + 1) mod 256) in *.
    destruct (ack_all fl x0 (amap a) (ackq a x0)) as [m1 s1] eqn:E1.
    set (a1 := Acks (put1 (ackq a) x0 []) m1 (prv_ack a)) in *.
    destruct (ack_slots fl (j + 1) n a1) as [a2 s2] eqn:E2. injection E as <- <-.
    destruct (ack_all_spec _ _ _ _ _ _ E1) as [S1 S2].
    assert (At : forall x e, In e (ackq a x) -> (x = x0 <-> adue e = P + 1)).
    { intros x e H. destruct (ai_due _ _ I x e H) as [H1 H2]. split.
      - intros ->. apply (same_slot P); auto.
      - intros D. rewrite H1, D. reflexivity. }
    assert (I1 : ainv (P + 1) a1).
    { constructor.
      - intros x e H. cbn [ackq a1] in H. unfold put1 in H. destruct (Z.eqb_spec x x0) as [X|X]; [contradiction|].
        destruct (ai_due _ _ I x e H) as [H1 H2]. split; [exact H1|].
        assert (adue e <> P + 1) by (intros D; apply X; apply (At x e H); exact D). lia.
      - intros x fd. cbn [amap ackq a1]. rewrite S2. unfold put1. destruct (Z.eqb_spec x x0) as [X|X].
        + subst x. split.
          * intros [H1 H2]. exfalso. apply H2. split; [reflexivity|]. apply (ai_map _ _ I). exact H1.
          * intros (e & [] & _).
        + rewrite (ai_map _ _ I x fd). split; [intros [H _]; exact H | intros H; split; [exact H | intros [Y _]; contradiction]]. }
    destruct (IH _ _ _ _ (P + 1) E2 I1) as (J1 & J2 & J3 & J4); [now rewrite MM|].
    replace (P + Z.of_nat (S n)) with (P + 1 + Z.of_nat n) by lia.
    assert (W1 : forall e, waiting a1 e <-> waiting a e /\ P + 1 < adue e).
    { intros e. split.
      - intros (x & H). destruct (ai_due _ _ I1 x e H) as [_ B]. cbn [ackq a1] in H. unfold put1 in H.
        destruct (Z.eqb_spec x x0); [contradiction|]. split; [exists x; exact H | lia].
      - intros ((x & H) & B). exists x. cbn [ackq a1]. unfold put1. destruct (Z.eqb_spec x x0) as [X|X]; [|exact H].
        apply (At x e H) in X. lia. }
    split; [exact J1|]. split; [rewrite J2; reflexivity|]. split.
    + intros e. rewrite in_app_iff, S1, J3, W1. split.
      * intros [[H1 H2] | ((H1 & H2) & H3 & H4)]; [|split; [exact H1 | auto]].
        split; [exists x0; exact H1|]. split; [|exact H2]. assert (adue e = P + 1) by (apply (At x0 e H1); reflexivity). lia.
      * intros ((x & H1) & H2 & H3). destruct (Z.eq_dec (adue e) (P + 1)) as [D|D].
        -- left. apply (At x e H1) in D. subst x. auto.
        -- right. destruct (ai_due _ _ I x e H1) as [_ B]. split; [|auto]. split; [exists x; exact H1 | lia].
    + intros e. rewrite J4, W1. split; [intros [[H1 H2] H3]; split; [exact H1 | lia] |].
      intros [H1 H2]. split; [split; [exact H1 | lia] | lia].
Qed.

Lemma acks_move_spec : forall fl now a a' s m, ainv (m / gran) a -> prv_ack a = (m / gran) mod 256 ->
  m <= now -> now / gran - m / gran < 256 -> acks_move fl now a = (a', s) ->
  ainv (now / gran) a' /\ prv_ack a' = (now / gran) mod 256 /\
  (forall e, In e s <-> waiting a e /\ adue e <= now / gran /\ fl (a_fd e) = Some (a_flow e)) /\
  (forall e, waiting a' e <-> waiting a e /\ now / gran < adue e).
Proof.
  intros fl now a a' s m I Pv Hm Gap E. unfold acks_move in E. rewrite shr18, aland, Pv in E.
  change ACKQ_SLOTS with 256 in E.
  assert (G0 : m / gran <= now / gran) by (apply Z.div_le_mono; unfold gran; lia).
  set (P := m / gran) in *. set (Q := now / gran) in *.
  assert (N : (if Q mod 256 <? P mod 256 then Q mod 256 + 256 else Q mod 256) - P mod 256 = Q - P).
  { pose proof (Z.div_mod Q 256 ltac:(lia)). pose proof (Z.div_mod P 256 ltac:(lia)).
    pose proof (Z.mod_pos_bound Q 256 ltac:(lia)). pose proof (Z.mod_pos_bound P 256 ltac:(lia)).
    destruct (Q mod 256 <? P mod 256) eqn:C; nia. }
  rewrite N in E. destruct (ack_slots fl (P mod 256) (Z.to_nat (Q - P)) a) as [a1 o] eqn:Es.
  injection E as <- <-.
  destruct (ack_slots_spec _ _ _ _ _ _ P Es I ltac:(now rewrite Z.mod_mod by lia)) as (J1 & J2 & J3 & J4).
  replace (P + Z.of_nat (Z.to_nat (Q - P))) with Q in * by lia.
  split; [destruct J1; constructor; auto|]. split.
  - cbn [prv_ack]. change (256 - 1) with (ACKQ_SLOTS - 1). rewrite aland.
    destruct (Q mod 256 <? P mod 256); [|apply Z.mod_mod; lia].
    replace (Q mod 256 + 256) with (Q mod 256 + 1 * 256) by lia. rewrite Z.mod_add, Z.mod_mod by lia. reflexivity.
  - split; [exact J3 | exact J4].
Qed.

Lemma ack_driven_inv : forall a m, ack_driven a m -> ainv (m / gran) a /\ prv_ack a = (m / gran) mod 256.
Proof.
  intros a m D. induction D as [now|a m fd flow t D IH Hm R|a m fl now a' s D IH Hm Gap E].
  - split.
    + constructor; [intros x e []|]. intros x fd. cbn. split; [discriminate | intros (e & [] & _)].
    + unfold acks_init. cbn [prv_ack]. rewrite shr18, aland. f_equal.
      replace (now - gran) with (now + (-1) * gran) by lia. rewrite Z.div_add by (unfold gran; lia). lia.
  - destruct IH as [I Pv]. unfold timerwheel_delayed_ack. fold delay. rewrite shr18, aland.
    set (x0 := ((t + delay) / gran + 1) mod 256).
    destruct (amap a x0 fd) eqn:C; [auto|]. split; [|exact Pv].
    assert (Dm : m / gran <= (t + delay) / gran) by (apply Z.div_le_mono; unfold gran, delay, TICTIME; lia).
    constructor; cbn [ackq amap].
    + intros x e H. unfold put1 in H. destruct (Z.eqb_spec x x0) as [X|X]; [|apply (ai_due _ _ I); exact H].
      subst x. apply in_app_iff in H. destruct H as [H | [<- | []]]; [apply (ai_due _ _ I); exact H|].
      unfold adue. cbn [a_at]. fold x0. split; [reflexivity | lia].
    + intros x f. unfold put, put1. destruct (Z.eqb_spec x x0) as [X|X]; cbn [andb].
      * subst x. destruct (Z.eqb_spec f fd) as [Y|Y].
        -- split; [|reflexivity]. intros _. exists (Ack fd flow t). split; [|now subst].
           apply in_app_iff. right. now left.
        -- rewrite (ai_map _ _ I). split; intros (e & H1 & H2).
           ++ exists e. split; [apply in_app_iff; auto | exact H2].
           ++ apply in_app_iff in H1. destruct H1 as [H1 | [<- | []]]; [eauto|]. cbn in H2. congruence.
      * apply (ai_map _ _ I).
  - destruct IH as [I Pv]. destruct (acks_move_spec _ _ _ _ _ _ I Pv Hm Gap E) as (J1 & J2 & _). auto.
Qed.

(* At each move of any history: exactly the waiting acknowledgements that
   are due are sent, of flows that still exist; none is sent before 10 ms
   have passed; and none waits longer than 10 ms and one slot. *)
Theorem tw_acks_in_time : forall a m fl now a' s,
  ack_driven a m -> m <= now -> now / gran - m / gran < 256 -> acks_move fl now a = (a', s) ->
  (forall e, In e s -> waiting a e /\ fl (a_fd e) = Some (a_flow e) /\ a_at e + delay < now) /\
  (forall e, waiting a' e -> waiting a e /\ now < a_at e + delay + gran) /\
  (forall e, waiting a e -> waiting a' e \/ In e s \/ fl (a_fd e) <> Some (a_flow e)).
Proof.
  intros a m fl now a' s D Hm Gap E. destruct (ack_driven_inv a m D) as [I Pv].
  destruct (acks_move_spec _ _ _ _ _ _ I Pv Hm Gap E) as (_ & _ & J3 & J4).
  assert (Div : forall x, gran * (x / gran) <= x < gran * (x / gran) + gran).
  { intros x. assert (0 < gran) by (unfold gran; lia). pose proof (Z.div_mod x gran ltac:(lia)).
    pose proof (Z.mod_pos_bound x gran ltac:(lia)). lia. }
  assert (Gp : 0 < gran) by (unfold gran; lia).
  split; [|split].
  - intros e He. apply J3 in He. destruct He as (H1 & H2 & H3). split; [exact H1|]. split; [exact H3|].
    unfold adue in H2. pose proof (Div (a_at e + delay)). pose proof (Div now). nia.
  - intros e He. apply J4 in He. destruct He as (H1 & H2). split; [exact H1|].
    unfold adue in H2. pose proof (Div (a_at e + delay)). pose proof (Div now). nia.
  - intros e He. destruct (Z.lt_ge_cases (now / gran) (adue e)) as [L|L].
    + left. apply J4. auto.
    + right. destruct (fl (a_fd e)) as [f|] eqn:F; [|right; discriminate].
      destruct (Z.eq_dec f (a_flow e)) as [X|X]; [left | right; congruence].
      apply J3. split; [exact He|]. split; [lia | congruence].
Qed.
Print Assumptions tw_acks_in_time.

(* C68, the part that holds: a flow that asks for an acknowledgement gets it
   at the first move that is 10 ms and one slot later, if the descriptor was
   not used by another flow that has one waiting. *)
Theorem tw_ack_sent_partial : forall a m fd flow t,
  ack_driven a m -> m <= t -> (t + delay) / gran - m / gran <= 255 ->
  (forall e, waiting a e -> a_fd e = fd -> a_flow e = flow) ->
  forall fl now a' s, m <= now -> now / gran - m / gran < 256 -> t + delay + gran <= now ->
  acks_move fl now (timerwheel_delayed_ack a fd flow t) = (a', s) -> fl fd = Some flow ->
  exists e, In e s /\ a_flow e = flow /\ a_fd e = fd.
Proof.
  intros a m fd flow t D Hm R Own fl now a' s Hn Gap Late E F.
  pose proof (ad_put a m fd flow t D Hm R) as D'.
  destruct (ack_driven_inv _ _ D') as [I' Pv']. destruct (ack_driven_inv _ _ D) as [I Pv].
  destruct (acks_move_spec _ _ _ _ _ _ I' Pv' Hn Gap E) as (_ & _ & J3 & _).
  assert (W : exists e, waiting (timerwheel_delayed_ack a fd flow t) e /\ a_fd e = fd /\ a_flow e = flow /\
                        adue e = (t + delay) / gran + 1).
  { unfold timerwheel_delayed_ack. fold delay. rewrite shr18, aland.
    set (x0 := ((t + delay) / gran + 1) mod 256).
    destruct (amap a x0 fd) eqn:C.
    - apply (ai_map _ _ I) in C. destruct C as (e & H1 & H2). exists e.
      split; [exists x0; exact H1|]. split; [exact H2|]. split; [apply Own; [exists x0; exact H1 | exact H2]|].
      destruct (ai_due _ _ I x0 e H1) as [H3 H4].
      assert (m / gran <= (t + delay) / gran) by (apply Z.div_le_mono; unfold gran, delay, TICTIME; lia).
      set (d := (t + delay) / gran + 1) in *. unfold x0 in H3.
      pose proof (Z.div_mod d 256 ltac:(lia)). pose proof (Z.div_mod (adue e) 256 ltac:(lia)). nia.
    - exists (Ack fd flow t). split; [|split; [reflexivity|split; [reflexivity|reflexivity]]].
      exists x0. cbn [ackq]. unfold put1. rewrite Z.eqb_refl. apply in_app_iff. right. now left. }
  destruct W as (e & W1 & W2 & W3 & W4). exists e. split; [|auto]. apply J3. split; [exact W1|].
  split; [|congruence]. rewrite W4.
  replace ((t + delay) / gran + 1) with ((t + delay + 1 * gran) / gran) by (rewrite Z.div_add; unfold gran; lia).
  apply Z.div_le_mono; unfold gran in *; lia.
Qed.
Print Assumptions tw_ack_sent_partial.

(* It is false without that: a descriptor that was given to another flow
   within 10 ms.  The wheel takes the new flow's acknowledgement for one
   that is waiting, and later drops it as that of the old flow. *)
Theorem tw_ack_sent_refuted :
  ~ (forall a m fd flow t, ack_driven a m -> m <= t -> (t + delay) / gran - m / gran <= 255 ->
     forall fl now a' s, m <= now -> now / gran - m / gran < 256 -> t + delay + gran <= now ->
     acks_move fl now (timerwheel_delayed_ack a fd flow t) = (a', s) -> fl fd = Some flow ->
     exists e, In e s /\ a_flow e = flow /\ a_fd e = fd).
Proof.
  intros H. pose (t0 := 1024 * gran). pose (a0 := acks_init t0).
  pose (a1 := timerwheel_delayed_ack a0 64 1 t0).
  assert (K0 : ack_driven a0 (t0 - gran)) by apply ad_init.
  assert (K1 : ack_driven a1 (t0 - gran)).
  { apply ad_put; [exact K0 | unfold gran; lia |]. vm_compute. discriminate. }
  pose (fl := fun fd : Z => if fd =? 64 then Some 2 else None).
  destruct (H a1 (t0 - gran) 64 2 (t0 + 1) K1 ltac:(unfold gran; lia) ltac:(vm_compute; discriminate)
              fl (t0 + delay + 2 * gran)
              (fst (acks_move fl (t0 + delay + 2 * gran) (timerwheel_delayed_ack a1 64 2 (t0 + 1))))
              (snd (acks_move fl (t0 + delay + 2 * gran) (timerwheel_delayed_ack a1 64 2 (t0 + 1))))
              ltac:(unfold delay, TICTIME, gran; lia) ltac:(vm_compute; reflexivity)
              ltac:(unfold gran; lia) (surjective_pairing _) eq_refl) as (e & He & _).
  assert (O : snd (acks_move fl (t0 + delay + 2 * gran) (timerwheel_delayed_ack a1 64 2 (t0 + 1))) = [])
    by (vm_compute; reflexivity).
  rewrite O in He. exact He.
Qed.
Print Assumptions tw_ack_sent_refuted.

Example tw_ack_example :
  let t0 := 1024 * gran in
  let a := timerwheel_delayed_ack (timerwheel_delayed_ack (acks_init t0) 64 1 t0) 64 1 (t0 + 1) in
  ack_driven a (t0 - gran) /\
  snd (acks_move (fun _ => Some 1) (t0 + delay) a) = [] /\
  snd (acks_move (fun _ => Some 1) (t0 + delay + gran) a) = [Ack 64 1 t0].
Proof.
  cbv zeta. split; [|split; vm_compute; reflexivity].
  apply ad_put; [apply ad_put; [apply ad_init | unfold gran; lia | vm_compute; discriminate]
                | unfold gran; lia | vm_compute; discriminate].
Qed.
