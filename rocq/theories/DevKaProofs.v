(* Proofs for DevKaProps. *)
From Coq Require Import List ZArith Bool Lia.
From Verif Require Import DevKaModel DevKaSpec.
Import ListNotations.
Open Scope Z_scope.

Lemma run_app k l m :
  fst (run k (l ++ m)) = fst (run (fst (run k l)) m).
Proof.
  revert k; induction l as [| [t e] l IH]; intros k; [reflexivity |].
  cbn. destruct (step k t e) as [k1 o]. specialize (IH k1).
  destruct (run k1 (l ++ m)); destruct (run k1 l); cbn in *. exact IH.
Qed.

Lemma run_cons k t e l : fst (run k ((t, e) :: l)) = fst (run (fst (step k t e)) l).
Proof. cbn. destruct (step k t e) as [k1 o]. cbn. destruct (run k1 l); reflexivity. Qed.

Lemma step_timeo k t e : timeo (fst (step k t e)) = timeo k.
Proof.
  destruct e; cbn; try reflexivity.
  - unfold keepalive. repeat (match goal with |- context [if ?b then _ else _] => destruct b end); reflexivity.
  - unfold read_step. destruct (rd k); [| reflexivity]. destruct (frq k); [| reflexivity].
    destruct (rxq k) as [| [[| n] p] q]; reflexivity.
  - unfold filter_step. destruct (rxq k) as [| [n p] q]; reflexivity.
Qed.

(* What is known after a history: every packet that came in waits or was
   taken, and then the time of activity is no older than W before it. *)
Record inv (W t0 : Z) (seen : list Z) (k : ka) (now : Z) : Prop := {
  i_t0 : t0 - W <= rcv_act k;
  i_now : t0 <= now;
  i_seen : forall a, In a seen -> a <= now;
  i_taken : forall a, In a seen -> (exists n s, In (n, (s, a)) (rxq k)) \/ a - W <= rcv_act k
}.

Lemma inv_step W t0 seen k now t e : 0 <= W ->
  inv W t0 seen k now -> now <= t -> reads_within W k t e ->
  inv W t0 (seen ++ arrivals [(t, e)]) (fst (step k t e)) t.
Proof.
  intros HW [I1 I2 I3 I4] Ht Hr.
  assert (Hs : forall a, In a seen -> a <= t) by (intros a Ha; specialize (I3 a Ha); lia).
  destruct e as [| ok | n s | | m | |]; cbn [arrivals flat_map snd fst app].
  all: try (rewrite app_nil_r).
  - assert (E : rcv_act (fst (step k t Tick)) = rcv_act k /\ rxq (fst (step k t Tick)) = rxq k).
    { cbn. unfold keepalive.
      repeat (match goal with |- context [if ?b then _ else _] => destruct b end); split; reflexivity. }
    destruct E as [E1 E2]. constructor; try rewrite E1; try rewrite E2; auto; lia.
  - constructor; cbn; auto; lia.
  - constructor; cbn; try lia.
    + intros a Ha. apply in_app_or in Ha as [Ha | [<- | []]]; [auto | lia].
    + intros a Ha. apply in_app_or in Ha as [Ha | [<- | []]].
      * destruct (I4 a Ha) as [(n' & s' & Hi) | H]; [left; exists n', s'; apply in_or_app; auto | auto].
      * left. exists n, s. apply in_or_app; right; left; reflexivity.
  - constructor; cbn; auto; lia.
  - cbn [step fst]. unfold read_step.
    destruct (rd k) as [c |] eqn:Ec; [| constructor; auto; lia].
    pose proof (Hr c m eq_refl Ec) as Hc.
    destruct (frq k) as [| f].
    + destruct (rxq k) as [| [[| n] [s a0]] q] eqn:Eq.
      * constructor; auto; try lia. intros a Ha. rewrite Eq. auto.
      * constructor; cbn; auto; try lia. intros a Ha. specialize (Hs a Ha). right; lia.
      * constructor; cbn; auto; try lia. intros a Ha. specialize (Hs a Ha). right; lia.
    + constructor; cbn; auto; try lia. intros a Ha. specialize (Hs a Ha). right; lia.
  - constructor; cbn; auto; lia.
  - cbn [step fst]. unfold filter_step. destruct (rxq k) as [| [n p] q] eqn:Eq.
    + constructor; auto; try lia. intros a Ha; rewrite Eq; auto.
    + constructor; cbn; auto; try lia. intros a Ha. specialize (Hs a Ha). right; lia.
Qed.

Lemma arrivals_cons x l : arrivals (x :: l) = arrivals [x] ++ arrivals l.
Proof. unfold arrivals. cbn. rewrite app_nil_r. reflexivity. Qed.

Lemma inv_run W t0 : 0 <= W -> forall l seen k now,
  inv W t0 seen k now -> ordered now l ->
  throughout (reads_within W) k l ->
  forall t, ordered now (l ++ [(t, Tick)]) ->
  exists now', now' <= t /\ inv W t0 (seen ++ arrivals l) (fst (run k l)) now'.
Proof.
  intros HW. induction l as [| [u e] l IH]; intros seen k now I Ho Ht t Hot.
  - exists now. cbn in *. rewrite app_nil_r. split; [lia | exact I].
  - cbn in Ho, Ht. destruct Ho as [Hu Ho]. destruct Ht as [Hr Ht].
    cbn in Hot. destruct Hot as [_ Hot].
    pose proof (inv_step W t0 seen k now u e HW I Hu Hr) as I'.
    destruct (IH _ _ _ I' Ho Ht t Hot) as (now' & H1 & H2).
    exists now'. split; [exact H1 |].
    rewrite run_cons, (arrivals_cons (u, e) l), app_assoc. exact H2.
Qed.

Lemma ordered_app t0 l m : ordered t0 (l ++ m) -> ordered t0 l.
Proof.
  revert t0; induction l as [| [t e] l IH]; cbn; intros t0 H; [exact I |].
  destruct H; split; eauto.
Qed.

Lemma run_timeo l k : timeo (fst (run k l)) = timeo k.
Proof.
  revert k; induction l as [| [t e] l IH]; intros k; [reflexivity |].
  rewrite run_cons, IH. apply step_timeo.
Qed.

Lemma keepalive_dead k t :
  snd (keepalive k t) = Dead -> timeo k <> 0 /\ peer_down k = false /\ timeo k * MILLION < t - rcv_act k.
Proof.
  unfold keepalive. destruct (timeo k =? 0) eqn:E; [cbn; intros; discriminate |].
  destruct (peer_down k); [cbn; intros; discriminate |]. cbn.
  destruct (timeo k * MILLION <? t - rcv_act k) eqn:E2.
  - intros _. apply Z.ltb_lt in E2. apply Z.eqb_neq in E. auto.
  - destruct (_ <? t - snd_act k); cbn; intros; discriminate.
Qed.

Lemma dead_sound T t0 W L l t : 0 <= W ->
  ordered t0 (l ++ [(t, Tick)]) ->
  throughout (reads_within W) (ka_init T t0) l ->
  waits_within L (fst (run (ka_init T t0) l)) t ->
  snd (step (fst (run (ka_init T t0) l)) t Tick) = Dead ->
  forall a, In a (t0 :: arrivals l) -> a < t - ms T + W \/ t - L <= a.
Proof.
  intros HW Ho Hr Hw Hd.
  assert (I0 : inv W t0 [] (ka_init T t0) t0).
  { constructor; cbn; try lia; contradiction. }
  destruct (inv_run W t0 HW l [] _ _ I0 (ordered_app _ _ _ Ho) Hr t Ho) as (now' & Hn & [J1 J2 J3 J4]).
  set (k := fst (run (ka_init T t0) l)) in *.
  apply keepalive_dead in Hd as (_ & _ & Hd).
  assert (ET : timeo k = T) by apply run_timeo. rewrite ET in Hd.
  unfold MILLION in Hd. unfold ms. intros a [<- | Ha]; [left; lia |].
  destruct (J4 a Ha) as [(n & s & Hi) | H]; [right | left; lia].
  specialize (Hw n s a Hi). lia.
Qed.

(* Noticing: everything that refreshes the activity time. *)
Record inv2 (L B : Z) (k : ka) : Prop := {
  j_rcv : rcv_act k < B;
  j_rx : forall n s a, In (n, (s, a)) (rxq k) -> a < B - L
}.

Lemma inv2_step L B k t e : 0 <= L ->
  inv2 L B k -> waits_within L k t ->
  (forall a, In a (arrivals [(t, e)]) -> a < B - L) ->
  (forall c, read_call k e = Some c -> c < B) ->
  inv2 L B (fst (step k t e)).
Proof.
  intros HL [I1 I2] Hw Ha Hc.
  destruct e as [| ok | n s | | m | |].
  - assert (E : rcv_act (fst (step k t Tick)) = rcv_act k /\ rxq (fst (step k t Tick)) = rxq k).
    { cbn. unfold keepalive.
      repeat (match goal with |- context [if ?b then _ else _] => destruct b end); split; reflexivity. }
    destruct E as [E1 E2]. constructor; [rewrite E1 | rewrite E2]; assumption.
  - constructor; cbn; assumption.
  - constructor; cbn; [assumption |]. intros n' s' a Hi.
    apply in_app_or in Hi as [Hi | [Hi | []]]; [eauto |].
    inversion Hi; subst. apply Ha. cbn. auto.
  - constructor; cbn; assumption.
  - cbn [step fst]. unfold read_step. cbn [read_call] in Hc.
    destruct (rd k) as [c |]; [| constructor; assumption].
    destruct (frq k) as [| f].
    + destruct (rxq k) as [| [[| n] [s a0]] q] eqn:Eq.
      * constructor; [assumption | rewrite Eq; assumption].
      * constructor; cbn.
        { specialize (Hw O s a0). rewrite Eq in Hw. specialize (Hw (or_introl eq_refl)).
          specialize (I2 O s a0 (or_introl eq_refl)). lia. }
        { intros n' s' a Hi. apply (I2 n' s' a). right; exact Hi. }
      * constructor; cbn; [apply Hc; reflexivity |].
        intros n' s' a Hi. apply (I2 n' s' a). right; exact Hi.
    + constructor; cbn; [apply Hc; reflexivity | assumption].
  - constructor; cbn; assumption.
  - cbn [step fst]. unfold filter_step. destruct (rxq k) as [| [n [s a0]] q] eqn:Eq.
    + constructor; [assumption | rewrite Eq; assumption].
    + constructor; cbn.
      * specialize (Hw n s a0). rewrite Eq in Hw. specialize (Hw (or_introl eq_refl)).
        specialize (I2 n s a0 (or_introl eq_refl)). lia.
      * intros n' s' a Hi. apply (I2 n' s' a). right; exact Hi.
Qed.

Lemma inv2_run L B : 0 <= L -> forall l k,
  inv2 L B k ->
  throughout (fun k t e => waits_within L k t /\ forall c, read_call k e = Some c -> c < B) k l ->
  (forall a, In a (arrivals l) -> a < B - L) ->
  inv2 L B (fst (run k l)).
Proof.
  intros HL. induction l as [| [u e] l IH]; intros k I Ht Ha; [exact I |].
  rewrite run_cons. cbn in Ht. destruct Ht as [[H1 H2] Ht].
  rewrite arrivals_cons in Ha.
  apply IH; [| exact Ht |].
  - apply inv2_step; auto. intros a H. apply Ha, in_or_app; auto.
  - intros a H. apply Ha, in_or_app; auto.
Qed.

Lemma dead_complete T t0 L l t : 0 <= L -> T <> 0 ->
  peer_down (fst (run (ka_init T t0) l)) = false ->
  t0 < t - ms T ->
  throughout (fun k u e => waits_within L k u /\ forall c, read_call k e = Some c -> c < t - ms T) (ka_init T t0) l ->
  (forall a, In a (arrivals l) -> a < t - ms T - L) ->
  snd (step (fst (run (ka_init T t0) l)) t Tick) = Dead.
Proof.
  intros HL HT Hp H0 Ht Ha.
  assert (I0 : inv2 L (t - ms T) (ka_init T t0)).
  { constructor; cbn; [lia | contradiction]. }
  destruct (inv2_run L _ HL l _ I0 Ht Ha) as [J1 _].
  cbn. unfold keepalive. rewrite Hp, run_timeo. cbn [timeo ka_init].
  apply Z.eqb_neq in HT. rewrite HT. cbn.
  unfold ms in J1. replace (T * MILLION <? _) with true; [reflexivity |].
  symmetry. apply Z.ltb_lt. unfold MILLION. lia.
Qed.

(* Both ends. *)
Fixpoint chain (G : Z) (p : Z) (q : list Z) : Prop :=
  match q with
  | [] => True
  | x :: q' => x - p <= G /\ chain G x q'
  end.

Fixpoint lastz (p : Z) (q : list Z) : Z :=
  match q with [] => p | x :: q' => lastz x q' end.

Lemma chain_snoc G q p t : chain G p q -> t - lastz p q <= G -> chain G p (q ++ [t]).
Proof.
  revert p; induction q as [| x q IH]; cbn; intros p H1 H2; [auto |].
  destruct H1; split; auto.
Qed.

Lemma lastz_snoc q p t : lastz p (q ++ [t]) = t.
Proof. revert p; induction q; cbn; auto. Qed.

Definition transit (Y : ka) (ch : list (nat * Z)) : list Z :=
  map (fun x => fst (snd x)) (rxq Y) ++ map snd ch.

Record dir (T d D W : Z) (X Y : ka) (ch : list (nat * Z)) (tickX now : Z) : Prop := {
  d_T : timeo X = T;
  d_p : exists p, p - W <= rcv_act Y /\ p <= now /\ chain (T * 250000 + d) p (transit Y ch) /\
                  lastz p (transit Y ch) = snd_act X;
  d_le : forall s, In s (transit Y ch) -> s <= now;
  d_snd : snd_act X <= now;
  d_tick : tickX - snd_act X <= T * 250000;
  d_rx : forall n s a, In (n, (s, a)) (rxq Y) -> a - s <= D
}.

Lemma dir_live T d D L W X Y ch tickX now t : 0 <= d -> 0 <= D -> 0 <= L ->
  dir T d D W X Y ch tickX now -> now <= t -> t - tickX <= d ->
  (forall n s, In (n, s) ch -> t - s <= D) -> waits_within L Y t ->
  t - rcv_act Y <= T * 250000 + d + D + L + W.
Proof.
  intros Hd HD HL [d1 (p & p1 & p2 & p3 & p4) d3 d4 d5 d6] Ht Htick Hch Hw.
  destruct (rxq Y) as [| [n [s a]] q] eqn:Eq.
  - destruct ch as [| [n s] c] eqn:Ec.
    + unfold transit in p4. rewrite Eq in p4. cbn in p4. lia.
    + unfold transit in p3. rewrite Eq in p3. cbn in p3. destruct p3 as [p3 _].
      specialize (Hch n s (or_introl eq_refl)). lia.
  - unfold transit in p3. rewrite Eq in p3. cbn in p3. destruct p3 as [p3 _].
    specialize (Hw n s a). rewrite Eq in Hw. specialize (Hw (or_introl eq_refl)).
    specialize (d6 n s a (or_introl eq_refl)). lia.
Qed.

Definition next_tick (e : event) (t old : Z) : Z := match e with Tick => t | _ => old end.

(* Nothing the sender does breaks it, *)
Lemma dir_sender T d D W X Y ch tickX now t e n : 0 <= d -> 0 <= T ->
  dir T d D W X Y ch tickX now -> now <= t -> t - tickX <= d ->
  T <> 0 -> peer_down X = false ->
  e <> Write false -> (forall m u, e <> Arrive m u) ->
  snd (step X t e) <> Dead ->
  dir T d D W (fst (step X t e)) Y (push ch n (snd (step X t e)) t) (next_tick e t tickX) t.
Proof.
  intros Hd HT [d1 (p & p1 & p2 & p3 & p4) d3 d4 d5 d6] Ht Htick HT0 Hpd He1 He2 Hdead.
  assert (Hquiet : forall X' tick', timeo X' = T -> snd_act X' = snd_act X -> tick' - snd_act X <= T * 250000 ->
    dir T d D W X' Y ch tick' t).
  { intros X' tick' E1 E2 E3. constructor.
    - exact E1.
    - exists p. rewrite E2. repeat split; auto; lia.
    - intros s Hs. specialize (d3 s Hs). lia.
    - lia.
    - lia.
    - exact d6. }
  assert (Hsent : forall X' tick', timeo X' = T -> snd_act X' = t -> tick' - t <= T * 250000 ->
    dir T d D W X' Y (ch ++ [(n, t)]) tick' t).
  { intros X' tick' E1 E2 E3.
    assert (ET : transit Y (ch ++ [(n, t)]) = transit Y ch ++ [t])
      by (unfold transit; rewrite map_app, app_assoc; reflexivity).
    constructor.
    - exact E1.
    - exists p. rewrite ET, lastz_snoc. repeat split; auto; try lia.
      apply chain_snoc; [exact p3 |]. rewrite p4. lia.
    - rewrite ET. intros s Hs. apply in_app_or in Hs as [Hs | [<- | []]]; [specialize (d3 s Hs); lia | lia].
    - lia.
    - lia.
    - exact d6. }
  destruct e as [| ok | m u | | m | |]; cbn [next_tick].
  - cbn [step] in *. unfold keepalive in *. rewrite d1, Hpd in *.
    apply Z.eqb_neq in HT0. rewrite HT0 in *. cbn [orb] in *.
    destruct (T * MILLION <? t - rcv_act X); [exfalso; apply Hdead; reflexivity |].
    change (MILLION / 4) with 250000 in *.
    destruct (T * 250000 <? t - snd_act X) eqn:E.
    + cbn [fst snd push]. apply Hsent; [reflexivity | reflexivity | lia].
    + cbn [fst snd push]. apply Hquiet; [exact d1 | reflexivity |].
      apply Z.ltb_ge in E. exact E.
  - destruct ok; [| exfalso; apply He1; reflexivity].
    cbn [step flow_tx fst snd push]. apply Hsent; [exact d1 | reflexivity |].
    lia.
  - exfalso. apply (He2 m u). reflexivity.
  - cbn [step fst snd push]. apply Hquiet; auto.
  - cbn [step fst snd push]. apply Hquiet; auto.
    + change (timeo (fst (step X t (ReadStep m))) = T). rewrite step_timeo. exact d1.
    + unfold read_step. destruct (rd X); [| reflexivity]. destruct (frq X); [| reflexivity].
      destruct (rxq X) as [| [[| n'] p'] q']; reflexivity.
  - cbn [step fst snd push]. apply Hquiet; auto.
  - cbn [step fst snd push]. apply Hquiet; auto.
    + change (timeo (fst (step X t Filter)) = T). rewrite step_timeo. exact d1.
    + unfold filter_step. destruct (rxq X) as [| [n' p'] q']; reflexivity.
Qed.

(* nothing the receiver does, *)
Lemma dir_receiver T d D W X Y ch tickX now t e : 0 <= W ->
  dir T d D W X Y ch tickX now -> now <= t ->
  (forall m u, e <> Arrive m u) -> reads_within W Y t e ->
  dir T d D W X (fst (step Y t e)) ch tickX t.
Proof.
  intros HW [d1 (p & p1 & p2 & p3 & p4) d3 d4 d5 d6] Ht He Hr.
  assert (Hkeep : forall Y', rxq Y' = rxq Y -> (rcv_act Y' = rcv_act Y \/ t - W <= rcv_act Y') ->
    dir T d D W X Y' ch tickX t).
  { intros Y' E1 E2.
    assert (ET : transit Y' ch = transit Y ch) by (unfold transit; rewrite E1; reflexivity).
    constructor; auto; try lia.
    - exists p. rewrite ET. repeat split; auto; lia.
    - rewrite ET. intros s Hs. specialize (d3 s Hs). lia.
    - rewrite E1. exact d6. }
  assert (Htake : forall Y' x q, rxq Y = x :: q -> rxq Y' = q -> t - W <= rcv_act Y' ->
    dir T d D W X Y' ch tickX t).
  { intros Y' [n [s a]] q E1 E2 E3.
    assert (ET : transit Y ch = s :: transit Y' ch) by (unfold transit; rewrite E1, E2; reflexivity).
    rewrite ET in *. cbn in p3, p4. destruct p3 as [p3 p5].
    constructor; auto; try lia.
    - exists s. pose proof (d3 s (or_introl eq_refl)). repeat split; auto; lia.
    - intros s' Hs. specialize (d3 s' (or_intror Hs)). lia.
    - intros n' s' a' Hi. apply (d6 n' s' a'). rewrite E1. right. rewrite <- E2. exact Hi. }
  destruct e as [| ok | m u | | m | |].
  - apply Hkeep; cbn; unfold keepalive;
      repeat (match goal with |- context [if ?b then _ else _] => destruct b end); auto.
  - apply Hkeep; cbn; auto.
  - exfalso. apply (He m u); reflexivity.
  - apply Hkeep; cbn; auto.
  - cbn [step fst]. unfold read_step.
    destruct (rd Y) as [c |] eqn:Ec; [| apply Hkeep; auto].
    pose proof (Hr c m eq_refl Ec) as Hc.
    destruct (frq Y) as [| f].
    + destruct (rxq Y) as [| [[| n] x] q] eqn:Eq.
      * apply Hkeep; auto.
      * eapply Htake; [reflexivity | reflexivity | cbn; lia].
      * eapply Htake; [reflexivity | reflexivity | cbn; lia].
    + apply Hkeep; [reflexivity | right; cbn; lia].
  - apply Hkeep; cbn; auto.
  - cbn [step fst]. unfold filter_step. destruct (rxq Y) as [| [n x] q] eqn:Eq.
    + apply Hkeep; auto.
    + eapply Htake; [reflexivity | reflexivity | cbn; lia].
Qed.

(* and no delivery. *)
Lemma dir_deliver T d D W X Y ch tickX now t n s : 0 <= W ->
  dir T d D W X Y ((n, s) :: ch) tickX now -> now <= t -> t - s <= D ->
  dir T d D W X (fst (step Y t (Arrive n s))) ch tickX t.
Proof.
  intros HW [d1 (p & p1 & p2 & p3 & p4) d3 d4 d5 d6] Ht Hs.
  assert (ET : transit (fst (step Y t (Arrive n s))) ch = transit Y ((n, s) :: ch)).
  { unfold transit. cbn. rewrite map_app, <- app_assoc. reflexivity. }
  constructor; auto; try lia.
  - exists p. rewrite ET. repeat split; auto; lia.
  - rewrite ET. intros s' Hs'. specialize (d3 s' Hs'). lia.
  - intros n' s' a' Hi. cbn in Hi. apply in_app_or in Hi as [Hi | [Hi | []]]; [eauto |].
    inversion Hi; subst. exact Hs.
Qed.

(* The other end's doings leave a direction alone, as time goes by. *)
Lemma dir_later T d D W X Y ch tickX now t :
  dir T d D W X Y ch tickX now -> now <= t -> dir T d D W X Y ch tickX t.
Proof.
  intros [d1 (p & p1 & p2 & p3 & p4) d3 d4 d5 d6] Ht. constructor; auto; try lia.
  - exists p. repeat split; auto; lia.
  - intros s Hs. specialize (d3 s Hs). lia.
Qed.

(* A direction does not look at what an arrival changes at its sender. *)
Lemma dir_sender_arrive T d D W X Y ch tickX now t n s :
  dir T d D W X Y ch tickX now -> now <= t ->
  dir T d D W (fst (step X t (Arrive n s))) Y ch tickX t.
Proof.
  intros H Ht. destruct (dir_later _ _ _ _ _ _ _ _ _ _ H Ht) as [d1 d2 d3 d4 d5 d6].
  constructor; auto.
Qed.

Definition both (T d D W : Z) (l : link) (now : Z) : Prop :=
  dir T d D W (endA l) (endB l) (ab l) (tickA l) now /\
  dir T d D W (endB l) (endA l) (ba l) (tickB l) now /\
  peer_down (endA l) = false /\ peer_down (endB l) = false.

Lemma step_peer k t e : snd (step k t e) <> Dead -> peer_down (fst (step k t e)) = peer_down k.
Proof.
  destruct e; cbn; auto.
  - unfold keepalive. destruct (_ || _) eqn:E; [reflexivity |].
    destruct (timeo k * MILLION <? t - rcv_act k); [cbn; congruence |].
    destruct (_ <? t - snd_act k); reflexivity.
  - intros _. unfold read_step. destruct (rd k); [| reflexivity]. destruct (frq k); [| reflexivity].
    destruct (rxq k) as [| [[| n] p] q]; reflexivity.
  - intros _. unfold filter_step. destruct (rxq k) as [| [n p] q]; reflexivity.
Qed.

Lemma step_dead k t e : snd (step k t e) = Dead -> e = Tick.
Proof. destruct e; cbn; auto; try discriminate. destruct ok; discriminate. Qed.

Section Both.
  Variables T d D L W : Z.
  Hypothesis HT : 0 < T.
  Hypothesis Hd : 0 <= d.
  Hypothesis HD : 0 <= D.
  Hypothesis HL : 0 <= L.
  Hypothesis HW : 0 <= W.
  Hypothesis Hbudget : T * 250000 + d + D + L + W <= T * 1000000.

  Lemma not_dead X Y ch tickX now t e :
    dir T d D W X Y ch tickX now -> now <= t -> t - tickX <= d -> timeo Y = T ->
    (forall n s, In (n, s) ch -> t - s <= D) -> waits_within L Y t ->
    snd (step Y t e) <> Dead.
  Proof.
    intros H Ht Htk HTY Hch Hw E. pose proof (step_dead _ _ _ E); subst e.
    pose proof (dir_live _ _ _ _ _ _ _ _ _ _ _ Hd HD HL H Ht Htk Hch Hw) as Hl.
    apply keepalive_dead in E as (_ & _ & E). rewrite HTY in E. unfold MILLION in E. lia.
  Qed.

  Lemma both_step l now t e :
    both T d D W l now -> now <= t -> timely d D L W l t e ->
    both T d D W (fst (lstep l t e)) t /\ snd (lstep l t e) <> Dead.
  Proof.
    intros (HA & HB & PA & PB) Ht [ta tb na nb wa wb ra rb nl].
    assert (T0 : T <> 0) by lia. assert (T1 : 0 <= T) by lia.
    pose proof (d_T _ _ _ _ _ _ _ _ _ HA) as TA. pose proof (d_T _ _ _ _ _ _ _ _ _ HB) as TB.
    destruct e as [[|] ev n | [|]].
    - destruct (nl SideA ev n eq_refl) as [N1 N2]. specialize (ra ev n eq_refl).
      assert (ND : snd (step (endA l) t ev) <> Dead)
        by (eapply (not_dead _ _ _ _ _ _ _ HB); eauto).
      pose proof (dir_sender T d D W (endA l) (endB l) (ab l) (tickA l) now t ev n Hd T1 HA Ht ta T0 PA N1 N2 ND) as SA.
      pose proof (dir_receiver T d D W (endB l) (endA l) (ba l) (tickB l) now t ev HW HB Ht N2 ra) as SB.
      pose proof (step_peer (endA l) t ev ND) as SP.
      unfold lstep. destruct (step (endA l) t ev) as [k o]. cbn in SA, SB, SP, ND |- *.
      split; [| exact ND]. unfold both; cbn. rewrite SP. auto.
    - destruct (nl SideB ev n eq_refl) as [N1 N2]. specialize (rb ev n eq_refl).
      assert (ND : snd (step (endB l) t ev) <> Dead)
        by (eapply (not_dead _ _ _ _ _ _ _ HA); eauto).
      pose proof (dir_sender T d D W (endB l) (endA l) (ba l) (tickB l) now t ev n Hd T1 HB Ht tb T0 PB N1 N2 ND) as SB.
      pose proof (dir_receiver T d D W (endA l) (endB l) (ab l) (tickA l) now t ev HW HA Ht N2 rb) as SA.
      pose proof (step_peer (endB l) t ev ND) as SP.
      unfold lstep. destruct (step (endB l) t ev) as [k o]. cbn in SA, SB, SP, ND |- *.
      split; [| exact ND]. unfold both; cbn. rewrite SP. auto.
    - unfold lstep. destruct (ba l) as [| [n s] q] eqn:Eq.
      + split; [| discriminate]. unfold both; cbn. rewrite Eq.
        split; [| split; [| auto]]; eapply dir_later; eauto.
      + split; [| discriminate]. unfold both; cbn [fst endA endB ab ba tickA tickB].
        split; [| split; [| auto]].
        * eapply dir_sender_arrive; eauto.
        * eapply dir_deliver; eauto. apply (nb n s). left; reflexivity.
    - unfold lstep. destruct (ab l) as [| [n s] q] eqn:Eq.
      + split; [| discriminate]. unfold both; cbn. rewrite Eq.
        split; [| split; [| auto]]; eapply dir_later; eauto.
      + split; [| discriminate]. unfold both; cbn [fst endA endB ab ba tickA tickB].
        split; [| split; [| auto]].
        * eapply dir_deliver; eauto. apply (na n s). left; reflexivity.
        * eapply dir_sender_arrive; eauto.
  Qed.

  Lemma both_reach l now : healthy T d D L W l now -> both T d D W l now.
  Proof.
    induction 1 as [ta tb Hab | l now t e H IH Ht Htim].
    - unfold both; cbn. split; [| split; [| auto]].
      + constructor; cbn; auto; try lia; try contradiction.
        exists ta. repeat split; auto; lia.
      + constructor; cbn; auto; try lia; try contradiction.
        exists tb. repeat split; auto; lia.
    - exact (proj1 (both_step _ _ _ _ IH Ht Htim)).
  Qed.
End Both.

(* Sending often enough: between two looks at the flow. *)
Lemma tick_sends k t : timeo k <> 0 -> 0 <= timeo k -> peer_down k = false ->
  snd (step k t Tick) <> Dead -> t - snd_act (fst (step k t Tick)) <= timeo k * 250000.
Proof.
  intros H1 H2 H3 H4. cbn in *. unfold keepalive in *. rewrite H3 in *.
  apply Z.eqb_neq in H1. rewrite H1 in *. cbn [orb] in *.
  destruct (timeo k * MILLION <? t - rcv_act k); [exfalso; apply H4; reflexivity |].
  change (MILLION / 4) with 250000 in *.
  destruct (timeo k * 250000 <? t - snd_act k) eqn:E.
  - cbn. lia.
  - cbn. apply Z.ltb_ge in E. exact E.
Qed.

(* Deciding the conditions on concrete histories. *)
Definition waitsb (L : Z) (k : ka) (t : Z) : bool :=
  forallb (fun x => t - snd (snd x) <=? L) (rxq k).

Definition readsb (W : Z) (k : ka) (t : Z) (e : event) : bool :=
  match e, rd k with ReadStep _, Some c => t - c <=? W | _, _ => true end.

Fixpoint throughoutb (P : ka -> Z -> event -> bool) (k : ka) (l : list (Z * event)) : bool :=
  match l with
  | [] => true
  | (t, e) :: l' => P k t e && throughoutb P (fst (step k t e)) l'
  end.

Lemma waitsb_ok L k t : waitsb L k t = true -> waits_within L k t.
Proof.
  unfold waitsb, waits_within. rewrite forallb_forall. intros H n s a Hi.
  specialize (H _ Hi). cbn in H. apply Z.leb_le in H. exact H.
Qed.

Lemma readsb_ok W k t e : readsb W k t e = true -> reads_within W k t e.
Proof.
  unfold readsb, reads_within. intros H c m -> E. rewrite E in H. apply Z.leb_le in H. exact H.
Qed.

Lemma throughoutb_ok (P : ka -> Z -> event -> Prop) Pb :
  (forall k t e, Pb k t e = true -> P k t e) ->
  forall l k, throughoutb Pb k l = true -> throughout P k l.
Proof.
  intros HP. induction l as [| [t e] l IH]; cbn; intros k H; [exact I |].
  apply andb_prop in H as [H1 H2]. split; auto.
Qed.

Definition timelyb (d D L W : Z) (l : link) (t : Z) (e : levent) : bool :=
  (t - tickA l <=? d) && (t - tickB l <=? d) &&
  forallb (fun x => t - snd x <=? D) (ab l) && forallb (fun x => t - snd x <=? D) (ba l) &&
  waitsb L (endA l) t && waitsb L (endB l) t &&
  match e with
  | At s ev _ => readsb W (match s with SideA => endA l | SideB => endB l end) t ev &&
                 match ev with Write false | Arrive _ _ => false | _ => true end
  | Deliver _ => true
  end.

Lemma timelyb_ok d D L W l t e : timelyb d D L W l t e = true -> timely d D L W l t e.
Proof.
  unfold timelyb. rewrite !andb_true_iff, !Z.leb_le, !forallb_forall.
  intros [[[[[[H1 H2] H3] H4] H5] H6] H7].
  constructor; auto using waitsb_ok.
  - intros n s Hi. specialize (H3 _ Hi). apply Z.leb_le in H3. exact H3.
  - intros n s Hi. specialize (H4 _ Hi). apply Z.leb_le in H4. exact H4.
  - intros ev n ->. apply andb_prop in H7 as [H7 _]. apply readsb_ok. exact H7.
  - intros ev n ->. apply andb_prop in H7 as [H7 _]. apply readsb_ok. exact H7.
  - intros s ev n ->. apply andb_prop in H7 as [_ H7].
    split; [intros -> | intros m u ->]; discriminate.
Qed.

Fixpoint lrun (l : link) (h : list (Z * levent)) : link * list out :=
  match h with
  | [] => (l, [])
  | (t, e) :: h' => let (l1, o) := lstep l t e in let (l2, os) := lrun l1 h' in (l2, o :: os)
  end.

Fixpoint timely_all (d D L W : Z) (l : link) (now : Z) (h : list (Z * levent)) : bool :=
  match h with
  | [] => true
  | (t, e) :: h' => (now <=? t) && timelyb d D L W l t e && timely_all d D L W (fst (lstep l t e)) t h'
  end.

Lemma lrun_healthy T d D L W h : forall l now,
  healthy T d D L W l now -> timely_all d D L W l now h = true ->
  healthy T d D L W (fst (lrun l h)) (fold_left (fun _ te => fst te) h now).
Proof.
  induction h as [| [t e] h IH]; intros l now H Hok; [exact H |].
  cbn in Hok. rewrite !andb_true_iff in Hok. destruct Hok as [[H1 H2] H3].
  apply Z.leb_le in H1. apply timelyb_ok in H2.
  specialize (IH _ _ (h_step _ _ _ _ _ _ _ _ _ H H1 H2) H3).
  cbn [lrun fold_left fst]. destruct (lstep l t e) as [l1 o]. cbn [fst] in *.
  destruct (lrun l1 h) as [l2 os]. exact IH.
Qed.
