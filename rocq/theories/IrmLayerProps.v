(** C112: the IRMd shows an IPCP in the layer it is in. *)
From Coq Require Import List Arith Bool Lia.
Import ListNotations.
From Verif Require Import IrmLayerModel IrmLayerSpec.

Lemma exec_app : forall l1 l2 s, exec s (l1 ++ l2) = match exec s l1 with Some s' => exec s' l2 | None => None end.
Proof. induction l1 as [ | a l1 IH]; intros l2 s; simpl; auto. destruct (step a s); auto. Qed.
Lemma after_snoc : forall l a s, after (l ++ [a]) s -> exists s0, after l s0 /\ step a s0 = Some s.
Proof.
  unfold after. intros l a s H. rewrite exec_app in H.
  destruct (exec init l) as [s0 | ] eqn:E; [ | discriminate].
  exists s0. split; auto. simpl in H. destruct (step a s0); congruence.
Qed.
Lemma upd_at : forall f i r, upd f i r i = r.
Proof. intros. unfold upd. rewrite Nat.eqb_refl. reflexivity. Qed.
Lemma upd_off : forall f i r j, j <> i -> upd f i r j = f j.
Proof. intros. unfold upd. apply Nat.eqb_neq in H. rewrite H. reflexivity. Qed.

(** A request that has joined: its answer is on its way or was given. *)
Definition good (r : rq) : Prop := match r with Ans _ _ (Some _) => True | Done true => True | _ => False end.
Definition inv (s : st) : Prop :=
  (forall e x, ent s = Some (e, Some x) -> own s = Some x) /\
  (forall i k e x, reqs s i = Ans k e (Some x) -> own s = Some x) /\
  (forall i j, good (reqs s i) -> good (reqs s j) -> i = j) /\
  (forall i, good (reqs s i) -> own s <> None) /\
  (forall i, joined s i -> forall e y, ent s = Some (e, y) -> y = own s).

Ltac at_ i j := destruct (Nat.eq_dec j i) as [-> | ]; [rewrite ?upd_at in * | rewrite ?upd_off in * by assumption].

(** A request changes to one that has not joined, and nothing else changes. *)
Lemma inv_put : forall i r s, inv s -> ~ good r -> inv (put i r s).
Proof.
  intros i r s (A & B & C & D & F) N. unfold inv, joined, put in *. simpl. repeat split.
  - exact A.
  - intros j k e x H. at_ i j; [subst r; simpl in N; tauto | eauto].
  - intros j j' H H'. at_ i j; [tauto | ]. at_ i j'; [tauto | ]. auto.
  - intros j H. at_ i j; [tauto | eauto].
  - intros j H e y E. at_ i j; [subst r; simpl in N; tauto | eauto].
Qed.

Lemma step_inv : forall a s s', inv s -> step a s = Some s' -> inv s'.
Proof.
  intros a s s' I H. unfold step in H. destruct (up s) eqn:U; [simpl in H | discriminate].
  destruct a as [i k | i o | i | i | | ].
  - destruct (reqs s i); try discriminate. destruct (ent s) as [[e y] | ]; inversion H; subst; apply inv_put; simpl; auto.
  - destruct (reqs s i) as [ | k e | k | k e r | ok] eqn:R; try discriminate; unfold perform in H.
    + destruct (own s) as [l0 | ] eqn:O; [ | destruct o as [l | ]];
        inversion H; subst; clear H; try (apply inv_put; simpl; auto; fail).
      destruct I as (A & B & C & D & F). unfold inv, joined, put in *. simpl. repeat split.
      * intros e0 x E. apply A in E. congruence.
      * intros j k0 e0 x E. at_ i j; [congruence | ]. apply B in E. congruence.
      * intros j j' H H'. at_ i j.
        -- at_ i j'; auto. exfalso. apply (D j'); auto.
        -- exfalso. apply (D j); auto.
      * intros; discriminate.
      * intros j H e0 y E. at_ i j; [discriminate | ]. exfalso. apply (D j); [rewrite H; exact Logic.I | exact O].
    + destruct (own s) as [l0 | ] eqn:O; [ | destruct o as [l | ]];
        inversion H; subst; clear H; try (apply inv_put; simpl; auto; fail).
      apply inv_put; [ | simpl; auto].
      destruct I as (A & B & C & D & F). unfold inv, joined in *. simpl. repeat split; auto.
      * intros e0 x E. apply A in E. congruence.
      * intros j k0 e0 x E. apply B in E. congruence.
      * intros; discriminate.
      * intros j H e0 y E. exfalso. apply (D j); [rewrite H; exact Logic.I | exact O].
  - destruct (reqs s i) as [ | k e | k | k e r | ok]; try discriminate; inversion H; subst; apply inv_put; simpl; auto.
  - destruct (reqs s i) as [ | k e | k | k e [l | ] | ok] eqn:R; try discriminate.
    2: { inversion H; subst; apply inv_put; [exact I | intro X; exact X]. }
    unfold set_layer in H.
    assert (K : s' = abort s \/ s' = put i (Done false) (St (reqs s) None (own s) (reported s) (up s)) \/
                exists e0, s' = put i (Done true) (St (reqs s) (Some (e0, Some l)) (own s) (reported s) (up s))).
    { rewrite U in *. destruct k, e; destruct (ent s) as [[[] y] | ]; simpl in H; injection H as <-; eauto. }
    clear H. destruct I as (A & B & C & D & F). pose proof (B i k e l R) as O.
    destruct K as [K | [K | [e0 K]]]; subst s'.
    + unfold inv, joined, abort in *. simpl. auto.
    + apply inv_put; [ | simpl; auto]. unfold inv, joined in *. simpl. repeat split; auto; intros; discriminate.
    + unfold inv, joined, put in *. simpl. repeat split.
      * intros e1 x E. congruence.
      * intros j k0 e1 x E. at_ i j; [discriminate | eauto].
      * intros j j' H H'. at_ i j; at_ i j'; auto.
        -- apply C; auto. rewrite R. exact Logic.I.
        -- apply C; auto. rewrite R. exact Logic.I.
      * intros. congruence.
      * intros j H e1 y E. congruence.
  - destruct (reported s); [discriminate | ]. inversion H; subst; clear H.
    destruct I as (A & B & C & D & F). unfold inv, joined in *. simpl. repeat split; auto.
    + intros e x E. destruct (ent s) as [[e0 y] | ]; [ | discriminate]. inversion E; subst. eauto.
    + intros j H e y E. destruct (ent s) as [[e0 y0] | ]; [ | discriminate]. inversion E; subst. eauto.
  - inversion H; subst; clear H.
    destruct I as (A & B & C & D & F). unfold inv, joined in *. simpl. repeat split; auto; intros; discriminate.
Qed.

Lemma after_inv : forall l s, after l s -> inv s.
Proof.
  induction l as [ | a l IH] using rev_ind; intros s H.
  - inversion H; subst. unfold inv, joined, init. simpl. repeat split; intros; try discriminate; tauto.
  - apply after_snoc in H. destruct H as (s0 & H0 & H). eapply step_inv; eauto.
Qed.

(** A layer the IRMd shows is the one the IPCP is in. *)
Theorem shown_is_member : forall l s x, after l s -> shown s x -> member s x.
Proof. intros l s x H [e E]. apply after_inv in H. destruct H as [A _]. eapply A; eauto. Qed.

(** A request that is answered well: the IPCP is in a layer, which the IRMd shows while it
    shows the IPCP at all; and no other request is ever answered well. *)
Theorem joined_once : forall l s i, after l s -> joined s i ->
  (exists x, member s x /\ (ent s = None \/ shown s x)) /\ forall j, joined s j -> j = i.
Proof.
  intros l s i H J. apply after_inv in H. destruct H as (A & B & C & D & F).
  unfold joined, member, shown in *.
  assert (G : good (reqs s i)) by (rewrite J; exact Logic.I).
  split.
  - destruct (own s) as [x | ] eqn:O; [ | exfalso; apply (D i); auto].
    exists x. split; auto. destruct (ent s) as [[e y] | ]; auto.
    right. exists e. rewrite (F i J e y eq_refl). reflexivity.
  - intros j Jj. apply C; auto. rewrite Jj. exact Logic.I.
Qed.

(** What the IPCP is in, is shown, or the answer is on its way: if no answer was given up, the
    pid was not removed and the IRMd runs. *)
Theorem member_shown_partial : forall l s x, after l s -> (forall a, In a l -> ~ gives_up a) -> ~ In Remove l ->
  up s = true -> member s x -> shown s x \/ coming s x.
Proof.
  intros l s x H G R U M.
  enough (K : ent s <> None /\ (forall i k, reqs s i <> Lost k) /\ (own s = Some x -> shown s x \/ coming s x)) by (apply K; exact M).
  clear M. revert s H U. induction l as [ | a l IH] using rev_ind; intros s H U.
  - inversion H; subst. simpl. repeat split; intros; discriminate.
  - apply after_snoc in H. destruct H as (s0 & H0 & H).
    assert (G0 : forall b, In b l -> ~ gives_up b) by (intros b Hb; apply G, in_or_app; auto).
    assert (R0 : ~ In Remove l) by (intro Hb; apply R, in_or_app; auto).
    assert (Ga : ~ gives_up a) by (apply G, in_or_app; right; left; auto).
    assert (Ra : a <> Remove) by (intros ->; apply R, in_or_app; right; left; auto).
    pose proof (after_inv _ _ H0) as I.
    unfold step in H. destruct (up s0) eqn:U0; [simpl in H | discriminate].
    destruct (IH G0 R0 s0 H0 U0) as (E & N & K). clear IH G R G0 R0.
    unfold shown, coming in *.
    (* a request that changes without a good answer on its way keeps the rest *)
    assert (P : forall i r, ~ good (reqs s0 i) -> (forall k, r <> Lost k) ->
      ent (put i r s0) <> None /\ (forall j k, reqs (put i r s0) j <> Lost k) /\
      (own (put i r s0) = Some x -> (exists e, ent (put i r s0) = Some (e, Some x)) \/
        (exists j k e, reqs (put i r s0) j = Ans k e (Some x)))).
    { intros i r Ni Nr. unfold put. simpl. repeat split; auto.
      - intros j k. at_ i j; auto.
      - intro O. destruct (K O) as [X | (j & k & e & X)]; auto. right. exists j, k, e.
        rewrite upd_off; auto. intros ->. apply Ni. rewrite X. exact Logic.I. }
    destruct a as [i k | i o | i | i | | ]; try congruence.
    + destruct (reqs s0 i) eqn:Q; try discriminate.
      destruct (ent s0) as [[e y] | ] eqn:En; [ | congruence]. inversion H; subst. rewrite <- En in *.
      apply P; [rewrite Q; simpl; tauto | discriminate].
    + destruct (reqs s0 i) as [ | k e | k | k e r | ok] eqn:Q; try discriminate; [ | exfalso; eapply N; eauto].
      unfold perform in H. destruct (own s0) as [l0 | ] eqn:O; [ | destruct o as [l1 | ]]; inversion H; subst; clear H.
      * rewrite <- O in *. apply P; [rewrite Q; simpl; tauto | discriminate].
      * unfold put. simpl. repeat split; auto.
        -- intros j k0. at_ i j; [discriminate | auto].
        -- intro X. right. exists i, k, e. rewrite upd_at. congruence.
      * rewrite <- O in *. apply P; [rewrite Q; simpl; tauto | discriminate].
    + exfalso. apply Ga. exists i. reflexivity.
    + destruct (reqs s0 i) as [ | k e | k | k e [l1 | ] | ok] eqn:Q; try discriminate.
      * destruct I as (_ & B & _). pose proof (B i k e l1 Q) as O.
        unfold set_layer in H. destruct (ent s0) as [[e1 y] | ]; [ | congruence].
        assert (X : s = abort s0 \/ exists e0, s = put i (Done true) (St (reqs s0) (Some (e0, Some l1)) (own s0) (reported s0) (up s0)))
          by (destruct k, e, e1; inversion H; subst; try rewrite U0; eauto).
        destruct X as [-> | [e0 ->]]; [discriminate U | ]. unfold put. simpl. repeat split.
        -- discriminate.
        -- intros j k0. at_ i j; [discriminate | auto].
        -- intro X. left. exists e0. congruence.
      * inversion H; subst. apply P; [rewrite Q; simpl; tauto | discriminate].
    + destruct (reported s0); [discriminate | ]. inversion H; subst; clear H. simpl.
      destruct (ent s0) as [[e y] | ]; [ | congruence]. repeat split; auto; [discriminate | ].
      intro O. destruct (K O) as [[e0 X] | X]; auto. left. exists EOper. congruence.
Qed.

(** The IRMd survives if no request comes before the IPCP reported that it is ready. *)
Theorem join_safe_partial : forall l1 l2 s, after (l1 ++ Report :: l2) s -> (forall a, In a l1 -> ~ asks a) -> up s = true.
Proof.
  intros l1 l2 s H N. unfold after in H. rewrite exec_app in H.
  destruct (exec init l1) as [s1 | ] eqn:E1; [ | discriminate].
  assert (K1 : forall l s, (forall a, In a l -> ~ asks a) -> exec init l = Some s -> (forall i, reqs s i = Idle) /\ own s = None /\ up s = true /\
    (forall e y, ent s = Some (e, y) -> y = None)).
  { clear. induction l as [ | a l IH] using rev_ind; intros s N H.
    - inversion H; subst. simpl. repeat split; auto. intros e y X. congruence.
    - apply after_snoc in H. destruct H as (s0 & H0 & H).
      destruct (IH s0) as (A & B & C & D); auto; [intros b Hb; apply N, in_or_app; auto | ].
      unfold step in H. rewrite C in H. simpl in H. destruct a as [i k | i o | i | i | | ]; rewrite ?A in H; try discriminate.
      + exfalso. apply (N (Get i k)); [apply in_or_app; right; left; auto | exists i, k; auto].
      + destruct (reported s0); [discriminate | ]. inversion H; subst; simpl. repeat split; auto.
        intros e y X. destruct (ent s0) as [[e0 y0] | ]; inversion X; subst; eauto.
      + inversion H; subst; simpl. repeat split; auto; discriminate. }
  destruct (K1 l1 s1 N E1) as (A & B & C & D). simpl in H.
  destruct (step Report s1) as [s2 | ] eqn:E2; [ | discriminate].
  unfold step in E2. rewrite C in E2. simpl in E2. destruct (reported s1) eqn:Rq; [discriminate | ].
  (* from here on the entry is not booting, and ready as long as no one joined *)
  assert (K2 : forall l s s', exec s l = Some s' ->
    inv s -> up s = true -> reported s = true ->
    (forall i k, reqs s i <> Sent k EBoot) -> (forall i k r, reqs s i <> Ans k EBoot r) ->
    (forall y, ent s <> Some (EBoot, y)) -> (forall e, ent s = Some (e, None) -> e = EOper) ->
    (forall i k e x, reqs s i = Ans k e (Some x) -> forall e1 y, ent s = Some (e1, y) -> y = None) -> up s' = true).
  { clear. induction l as [ | a l IH]; intros s s' H I U Rp S1 S2 S3 S4 S5; simpl in H.
    - congruence.
    - destruct (step a s) as [s1 | ] eqn:E; [ | discriminate].
      pose proof (step_inv _ _ _ I E) as I1.
      assert (P : forall i r, s1 = put i r s -> (forall k, r <> Sent k EBoot) -> (forall k r', r <> Ans k EBoot r') ->
                  (forall k e x, r <> Ans k e (Some x)) -> up s' = true).
      { intros i r -> R1 R2 R3. eapply IH; try exact H; auto; unfold put; simpl; auto.
        - intros j k. at_ i j; auto.
        - intros j k r'. at_ i j; auto.
        - intros j k e x X. at_ i j; [exfalso; eapply R3; eauto | eauto]. }
      unfold step in E. rewrite U in E. simpl in E. destruct a as [i k | i o | i | i | | ].
      + destruct (reqs s i) eqn:Q; try discriminate. destruct (ent s) as [[e y] | ] eqn:En; inversion E as [E'].
        * apply (P i (Sent k e)); auto; try discriminate. intros k0 X. inversion X; subst. eapply S3; eauto.
        * apply (P i (Done false)); auto; discriminate.
      + destruct (reqs s i) as [ | k e | k | k e r | ok] eqn:Q; try discriminate; unfold perform in E.
        * destruct (own s) as [l0 | ] eqn:O; [ | destruct o as [l1 | ]]; inversion E as [E'].
          -- apply (P i (Ans k e None)); auto; try discriminate. intros k0 r' X. inversion X; subst. eapply S1; eauto.
          -- subst s1. eapply IH; try exact H; auto; unfold put; simpl; auto.
             ++ intros j k0. at_ i j; [discriminate | auto].
             ++ intros j k0 r'. at_ i j; auto. intro X. inversion X; subst. eapply S1; eauto.
             ++ intros j k0 e0 x X e1 y Y. destruct y as [y | ]; auto. destruct I as (A & _). apply A in Y. congruence.
          -- apply (P i (Ans k e None)); auto; try discriminate. intros k0 r' X. inversion X; subst. eapply S1; eauto.
        * destruct (own s) as [l0 | ] eqn:O; [ | destruct o as [l1 | ]]; inversion E as [E'];
            try (apply (P i (Done false)); auto; discriminate).
          subst s1. eapply IH; try exact H; auto; unfold put; simpl; auto.
          -- intros j k0. at_ i j; [discriminate | auto].
          -- intros j k0 r'. at_ i j; [discriminate | auto].
          -- intros j k0 e0 x X e1 y Y. at_ i j; [discriminate | eauto].
      + destruct (reqs s i) as [ | k e | k | k e r | ok] eqn:Q; try discriminate; inversion E as [E'];
          [apply (P i (Lost k)) | apply (P i (Done false))]; auto; discriminate.
      + destruct (reqs s i) as [ | k e | k | k e [l1 | ] | ok] eqn:Q; try discriminate.
        2: { inversion E as [E']. apply (P i (Done false)); auto; discriminate. }
        assert (Ne : e <> EBoot) by (intros ->; eapply S2; eauto).
        unfold set_layer in E.
        assert (X : (s1 = put i (Done false) (St (reqs s) None (own s) (reported s) (up s))) \/
                    exists e0, e0 <> EBoot /\ s1 = put i (Done true) (St (reqs s) (Some (e0, Some l1)) (own s) (reported s) (up s))).
        { destruct (ent s) as [[e1 y] | ] eqn:En.
          - assert (y = None) by (eapply S5; eauto). subst y. assert (e1 = EOper) by (apply S4; auto). subst e1.
            right. destruct k, e; try congruence; inversion E; rewrite U; eexists; (split; [ | reflexivity]); discriminate.
          - left. destruct k, e; try congruence; inversion E; rewrite U; reflexivity. }
        destruct I as (_ & _ & C & _).
        destruct X as [-> | (e0 & Ne0 & ->)]; (eapply IH; [exact H | exact I1 | | | | | | | ]); unfold put; simpl; auto;
          try discriminate; try congruence.
        * intros j k0. at_ i j; [discriminate | auto].
        * intros j k0 r'. at_ i j; [discriminate | auto].
        * intros j k0. at_ i j; [discriminate | auto].
        * intros j k0 r'. at_ i j; [discriminate | auto].
        * intros j k0 e2 x X. exfalso. at_ i j; [discriminate | ].
          apply n. apply C; [rewrite X; exact Logic.I | rewrite Q; exact Logic.I].
      + rewrite Rp in E. discriminate.
      + inversion E; subst s1. eapply IH; try exact H; auto; simpl; try discriminate. }
  eapply K2; [exact H | | | | | | | | ]; inversion E2; subst s2; simpl; auto.
  - eapply after_inv. unfold after. instantiate (1 := l1 ++ [Report]). rewrite exec_app, E1. simpl.
    unfold step. rewrite C. simpl. rewrite Rq. reflexivity.
  - intros i k. rewrite A. discriminate.
  - intros i k r. rewrite A. discriminate.
  - intros y. destruct (ent s1) as [[e y0] | ]; discriminate.
  - intros e. destruct (ent s1) as [[e1 y0] | ]; intro X; inversion X; auto.
  - intros i k e x X. rewrite A in X. discriminate.
Qed.

(** * What is false *)

(** An answer that comes too late: the IPCP is in a layer, and the IRMd shows it as in none,
    whatever is done afterwards. *)
Definition late := [Report; Get 0 Enroll; GiveUp 0; Exec 0 (Some 5)].
Theorem member_shown_refuted : exists l s x, after l s /\ ~ In Remove l /\ up s = true /\ member s x /\ shown_out s /\
  forall l' s', exec s l' = Some s' -> member s' x /\ (ent s' = None \/ shown_out s') /\ forall i, ~ joined s' i.
Proof.
  exists late. eexists. exists 5. split; [reflexivity | ]. split; [unfold late; simpl; intuition discriminate | ].
  split; [reflexivity | ]. split; [reflexivity | ]. split; [exists EOper; reflexivity | ].
  assert (K : forall l' s s', exec s l' = Some s' -> own s = Some 5 -> (forall i, ~ good (reqs s i)) ->
    (ent s = None \/ shown_out s) -> own s' = Some 5 /\ (forall i, ~ good (reqs s' i)) /\ (ent s' = None \/ shown_out s')).
  { induction l' as [ | a l' IH]; intros s s' H O N Sh; simpl in H.
    - inversion H; subst. auto.
    - destruct (step a s) as [s1 | ] eqn:E; [ | discriminate].
      assert (X : own s1 = Some 5 /\ (forall i, ~ good (reqs s1 i)) /\ (ent s1 = None \/ shown_out s1)).
      { unfold step in E. destruct (up s); [simpl in E | discriminate].
        assert (P : forall i r, s1 = put i r s -> ~ good r -> own s1 = Some 5 /\ (forall i, ~ good (reqs s1 i)) /\ (ent s1 = None \/ shown_out s1)).
        { intros i r -> R. unfold put, shown_out in *. simpl. repeat split; auto. intros j. at_ i j; auto. }
        destruct a as [i k | i o | i | i | | ].
        - destruct (reqs s i); try discriminate. destruct (ent s) as [[e y] | ]; injection E as <-; refine (P _ _ eq_refl _); simpl; auto.
        - unfold perform in E. rewrite O in E. destruct (reqs s i); try discriminate; injection E as <-; refine (P _ _ eq_refl _); simpl; auto.
        - destruct (reqs s i); try discriminate; injection E as <-; refine (P _ _ eq_refl _); simpl; auto.
        - destruct (reqs s i) as [ | | | k e [x | ] | ] eqn:Q; try discriminate.
          + exfalso. apply (N i). rewrite Q. exact Logic.I.
          + injection E as <-; refine (P _ _ eq_refl _); simpl; auto.
        - destruct (reported s); [discriminate | ]. inversion E; subst. simpl. repeat split; auto.
          destruct Sh as [Sh | [e Sh]]; unfold shown_out; simpl; rewrite Sh; eauto.
        - inversion E; subst. simpl. auto. }
      destruct X as (X1 & X2 & X3). eapply IH; eauto. }
  intros l' s' H. apply K in H.
  - destruct H as (A & B & C). split; [exact A | split; [exact C | ]]. intros i J. apply (B i). unfold joined in J. rewrite J. exact Logic.I.
  - reflexivity.
  - intros i. cbn. unfold upd. destruct (i =? 0); simpl; auto.
  - right. exists EOper. reflexivity.
Qed.

(** A request that comes before the IPCP reported brings the IRMd down, of either kind, also
    if the report comes before the answer. *)
Theorem join_safe_refuted :
  (exists l s, ~ In Remove l /\ (forall a, In a l -> ~ gives_up a) /\ after l s /\ up s = false /\ In (Get 0 Bootstrap) l) /\
  (exists l s, ~ In Remove l /\ (forall a, In a l -> ~ gives_up a) /\ after l s /\ up s = false /\ reported s = true).
Proof.
  split.
  - exists [Get 0 Bootstrap; Exec 0 (Some 5); Store 0]. eexists. repeat split; [ | | simpl; auto].
    + simpl. intuition discriminate.
    + intros a A [i ->]. simpl in A. intuition discriminate.
  - exists [Get 0 Enroll; Exec 0 (Some 5); Report; Store 0]. eexists. repeat split.
    + simpl. intuition discriminate.
    + intros a A [i ->]. simpl in A. intuition discriminate.
Qed.

(** The hypotheses are met: two requests at once, of which one joins. *)
Definition usual := [Report; Get 0 Bootstrap; Get 1 Enroll; Exec 1 (Some 7); Exec 0 (Some 8); Store 0; Store 1].
Example usual_met : exists s, after usual s /\ shown s 7 /\ member s 7 /\ joined s 1 /\ ~ joined s 0 /\ up s = true.
Proof. eexists. split; [reflexivity | ]. repeat split; [exists EOper; reflexivity | discriminate]. Qed.
Example usual_hyps : (forall a, In a usual -> ~ gives_up a) /\ ~ In Remove usual.
Proof.
  split.
  - intros a A [i ->]. simpl in A. intuition discriminate.
  - simpl. intuition discriminate.
Qed.

Print Assumptions shown_is_member.
Print Assumptions joined_once.
Print Assumptions member_shown_partial.
Print Assumptions join_safe_partial.
Print Assumptions member_shown_refuted.
Print Assumptions join_safe_refuted.
