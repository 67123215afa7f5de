(* Lemmas about the timer wheel. *)
From Coq Require Import ZArith List Bool Lia ZifyBool.
From Verif Require Import SeqNoModel TwModel.
Import ListNotations.
Open Scope Z_scope.

Definition aslot (l t : Z) : Z := Z.shiftr t (20 + 4 * l).
Definition due (l : Z) (e : rxm) : Z := aslot l (r_at e) + aslot l (r_rto e) + 1.

Lemma land255 : forall x, Z.land x (RXMQ_SLOTS - 1) = x mod 256.
Proof. intros x. change (RXMQ_SLOTS - 1) with (Z.ones 8). rewrite Z.land_ones by lia. reflexivity. Qed.

Lemma some_pair : forall (a b c d : Z), Some (a, b) = Some (c, d) -> c = a /\ d = b.
Proof. intros a b c d H. split; congruence. Qed.

Lemma place_spec : forall t rto l x, place t rto = Some (l, x) ->
  0 <= l < 3 /\ x = (aslot l t + aslot l rto + 1) mod 256 /\ aslot l rto < 256.
Proof.
  intros t rto l x E. unfold place, RXMQ_RES, RXMQ_BUMP, RXMQ_SLOTS in E.
  rewrite !Z.shiftr_shiftr in E by lia. change (256 - 1) with (RXMQ_SLOTS - 1) in E. rewrite !land255 in E.
  change (20 + 4) with 24 in E. change (24 + 4) with 28 in E. unfold aslot.
  destruct (Z.shiftr rto 20 <? 256) eqn:C0.
  { apply some_pair in E. destruct E as [-> ->]. change (20 + 4 * 0) with 20. split; [lia|]. split; [f_equal; lia | lia]. }
  destruct (Z.shiftr rto 24 <? 256) eqn:C1.
  { apply some_pair in E. destruct E as [-> ->]. change (20 + 4 * 1) with 24. split; [lia|]. split; [f_equal; lia | lia]. }
  destruct (Z.shiftr rto 28 <? 256) eqn:C2; [|discriminate].
  apply some_pair in E. destruct E as [-> ->]. change (20 + 4 * 2) with 28. split; [lia|]. split; [f_equal; lia | lia].
Qed.

(* Every entry is on its level, in its slot, and the slot is ahead of the
   pointers P by at most one turn. *)
Definition inv (P : Z -> Z) (w : wheel) : Prop :=
  forall l x e, In e (rxms w l x) ->
    place (r_at e) (r_rto e) = Some (l, x) /\ 0 <= r_rto e /\ P l < due l e <= P l + 256.

Definition good (P : Z -> Z) (now : Z) (o : outcome) : Prop :=
  match o with
  | Resent rto | Delayed rto =>
      0 <= rto /\ forall l x, place now rto = Some (l, x) -> aslot l now - P l + aslot l rto <= 255
  | _ => True
  end.

Definition again (o : outcome) : option Z :=
  match o with Resent rto | Delayed rto => Some rto | _ => None end.

Definition renew (r : rxm) (now rto : Z) : rxm := Rxm (r_flow r) (r_seqno r) (r_t0 r) now rto.

(* The flows change in nothing but the time-outs. *)
Definition same_flows (a b : Z -> fcb) : Prop :=
  forall i, alive (a i) = alive (b i) /\ snd_lwe (a i) = snd_lwe (b i) /\ r_time (a i) = r_time (b i) /\
            rttseq (a i) = rttseq (b i).

Lemma same_flows_refl : forall a, same_flows a a.
Proof. intros a i. auto. Qed.

Lemma same_flows_trans : forall a b c, same_flows a b -> same_flows b c -> same_flows a c.
Proof. intros a b c H1 H2 i. specialize (H1 i). specialize (H2 i). intuition congruence. Qed.

Lemma handle_spec : forall env now w r w' o, handle env now w r = (w', o) ->
  same_flows (fcbs w) (fcbs w') /\ prv_rxm w' = prv_rxm w /\
  (forall rto, again o = Some rto ->
     alive (fcbs w (r_flow r)) = true /\ before (r_seqno r) (snd_lwe (fcbs w (r_flow r))) = false /\
     exists l x, place now rto = Some (l, x) /\
       forall l' x' e, In e (rxms w' l' x') <->
         In e (rxms w l' x') \/ (l' = l /\ x' = x /\ e = renew r now rto)) /\
  (again o = None -> rxms w' = rxms w) /\
  (o = Removed -> alive (fcbs w (r_flow r)) = false \/ before (r_seqno r) (snd_lwe (fcbs w (r_flow r))) = true) /\
  (forall rto, o = Resent rto -> env r = Written).
Proof.
  intros env now w r w' o E. unfold handle in E.
  destruct (alive (fcbs w (r_flow r))) eqn:Al; cbn [negb] in E.
  2:{ injection E as <- <-. split; [apply same_flows_refl|]. split; [reflexivity|].
      split; [discriminate|]. split; [reflexivity|]. split; [auto | discriminate]. }
  destruct (before (r_seqno r) (snd_lwe (fcbs w (r_flow r)))) eqn:Bf.
  { injection E as <- <-. split; [apply same_flows_refl|]. split; [reflexivity|].
    split; [discriminate|]. split; [reflexivity|]. split; [auto | discriminate]. }
  destruct (r_time (fcbs w (r_flow r)) <? now - r_t0 r).
  { injection E as <- <-. split; [apply same_flows_refl|]. split; [reflexivity|].
    split; [discriminate|]. split; [reflexivity|]. split; discriminate. }
  set (rto := if r_seqno r =? rttseq (fcbs w (r_flow r)) then _ else _) in *.
  assert (SF : same_flows (fcbs w) (put1 (fcbs w) (r_flow r)
            (Fcb true (snd_lwe (fcbs w (r_flow r))) (r_time (fcbs w (r_flow r))) rto
               (rttseq (fcbs w (r_flow r)))))).
  { intros i. unfold put1. destruct (Z.eqb_spec i (r_flow r)) as [X|X]; [subst i; cbn; auto | auto]. }
  cbn [rxms prv_rxm fcbs] in E.
  destruct (place now rto) as [[l x]|] eqn:Pl.
  2:{ injection E as <- <-. split; [exact SF|]. split; [reflexivity|].
      split; [discriminate|]. split; [reflexivity|]. split; discriminate. }
  assert (Mem : forall l' x' e,
     In e (put (rxms w) l x (Rxm (r_flow r) (r_seqno r) (r_t0 r) now rto :: rxms w l x) l' x') <->
     In e (rxms w l' x') \/ (l' = l /\ x' = x /\ e = renew r now rto)).
  { intros l' x' e. unfold put. destruct (Z.eqb_spec l' l) as [X|X]; cbn [andb].
    - destruct (Z.eqb_spec x' x) as [Y|Y].
      + subst l' x'. cbn [In]. unfold renew. intuition congruence.
      + intuition congruence.
    - intuition congruence. }
  destruct (env r) eqn:Ev; injection E as <- <-; cbn [rxms prv_rxm fcbs];
    (split; [exact SF|]); (split; [reflexivity|]).
  - split; [|split; [discriminate|split; discriminate]].
    cbn [again]. intros rt X. injection X as <-. split; [reflexivity|]. split; [reflexivity|]. eauto.
  - split; [|split; [discriminate|split; [discriminate | auto]]].
    cbn [again]. intros rt X. injection X as <-. split; [reflexivity|]. split; [reflexivity|]. eauto.
  - split; [discriminate|]. split; [reflexivity|]. split; discriminate.
Qed.

Lemma handle_inv : forall env now w r w' o P, handle env now w r = (w', o) ->
  inv P w -> (forall l, 0 <= l < 3 -> P l <= aslot l now) -> good P now o -> inv P w'.
Proof.
  intros env now w r w' o P E I Q G.
  destruct (handle_spec _ _ _ _ _ _ E) as (_ & _ & S3 & S4 & _).
  destruct (again o) as [rto|] eqn:Ag.
  - destruct (S3 rto eq_refl) as (_ & _ & l & x & Pl & Mem). intros l' x' e He. apply Mem in He.
    destruct He as [He | (-> & -> & ->)]; [apply I; exact He|].
    unfold renew, due. cbn [r_at r_rto].
    assert (G' : 0 <= rto /\ forall l x, place now rto = Some (l, x) -> aslot l now - P l + aslot l rto <= 255)
      by (destruct o; cbn in Ag; try discriminate; injection Ag as ->; exact G).
    destruct G' as [G0 G1]. specialize (G1 l x Pl). destruct (place_spec _ _ _ _ Pl) as (L & _ & _).
    specialize (Q l L). split; [exact Pl|]. split; [exact G0|].
    assert (0 <= aslot l rto) by (unfold aslot; apply Z.shiftr_nonneg; exact G0). lia.
  - intros l x e He. rewrite (S4 eq_refl) in He. apply I; exact He.
Qed.

(* Several entries. *)
Definition stays (w : wheel) (outs : list (rxm * outcome)) (now : Z) (w' : wheel) : Prop :=
  forall l x e, In e (rxms w' l x) <->
    In e (rxms w l x) \/
    (exists r o rto, In (r, o) outs /\ again o = Some rto /\ place now rto = Some (l, x) /\ e = renew r now rto).

Lemma handle_all_spec : forall env now l w w' os, handle_all env now w l = (w', os) ->
  map fst os = l /\ same_flows (fcbs w) (fcbs w') /\ prv_rxm w' = prv_rxm w /\ stays w os now w' /\
  (forall r o, In (r, o) os ->
     (again o <> None -> alive (fcbs w (r_flow r)) = true /\
                         before (r_seqno r) (snd_lwe (fcbs w (r_flow r))) = false) /\
     (o = Removed -> alive (fcbs w (r_flow r)) = false \/
                     before (r_seqno r) (snd_lwe (fcbs w (r_flow r))) = true)).
Proof.
  intros env now. induction l as [|r l IH]; intros w w' os E; cbn [handle_all] in E.
  - injection E as <- <-. split; [reflexivity|]. split; [apply same_flows_refl|]. split; [reflexivity|].
    split; [|contradiction]. intros a b e. split; [auto|]. intros [H | (r & o & rto & [] & _)]. exact H.
  - destruct (handle env now w r) as [w1 o] eqn:E1. destruct (handle_all env now w1 l) as [w2 os2] eqn:E2.
    injection E as <- <-.
    destruct (handle_spec _ _ _ _ _ _ E1) as (A1 & A2 & A3 & A4 & A5 & _).
    destruct (IH _ _ _ E2) as (B1 & B2 & B3 & B4 & B5).
    split; [cbn; now rewrite B1|]. split; [eapply same_flows_trans; eauto|]. split; [congruence|]. split.
    + intros a b e. rewrite (B4 a b e). destruct (again o) as [rto|] eqn:Ag.
      * destruct (A3 rto eq_refl) as (_ & _ & lv & x & Pl & Mem). rewrite (Mem a b e). split.
        -- intros [[H | (-> & -> & ->)] | (r0 & o0 & rt & H1 & H2 & H3 & H4)]; [now left| |].
           ++ right. exists r, o, rto. cbn [In]. auto.
           ++ right. exists r0, o0, rt. cbn [In]. auto.
        -- intros [H | (r0 & o0 & rt & [H1|H1] & H2 & H3 & H4)]; [auto| |].
           ++ injection H1 as -> ->. rewrite Ag in H2. injection H2 as ->. rewrite Pl in H3. injection H3 as -> ->.
              left; right. auto.
           ++ right. exists r0, o0, rt. auto.
      * rewrite (A4 eq_refl). split.
        -- intros [H | (r0 & o0 & rt & H1 & H2 & H3 & H4)]; [auto|]. right. exists r0, o0, rt. cbn [In]. auto.
        -- intros [H | (r0 & o0 & rt & [H1|H1] & H2 & H3 & H4)]; [auto| |].
           ++ injection H1 as -> ->. congruence.
           ++ right. exists r0, o0, rt. auto.
    + intros r0 o0 [H|H].
      * injection H as -> ->. split.
        -- intros X. destruct (again o0) as [rto|] eqn:Ag; [|congruence]. destruct (A3 rto eq_refl) as (Y1 & Y2 & _). auto.
        -- exact A5.
      * destruct (B5 r0 o0 H) as [Y1 Y2]. destruct (A1 (r_flow r0)) as (Z1 & Z2 & _).
        rewrite Z1, Z2. auto.
Qed.

Lemma handle_all_inv : forall env now P l w w' os, handle_all env now w l = (w', os) ->
  inv P w -> (forall l, 0 <= l < 3 -> P l <= aslot l now) -> Forall (fun p => good P now (snd p)) os -> inv P w'.
Proof.
  intros env now P. induction l as [|r l IH]; intros w w' os E I Q G; cbn [handle_all] in E.
  - injection E as <- <-. exact I.
  - destruct (handle env now w r) as [w1 o] eqn:E1. destruct (handle_all env now w1 l) as [w2 os2] eqn:E2.
    injection E as <- <-. inversion G as [|? ? G1 G2]; subst.
    apply (IH _ _ _ E2); auto. apply (handle_inv _ _ _ _ _ _ _ E1); auto.
Qed.

Lemma same_slot : forall P d j, P < d <= P + 256 -> j = P + 1 -> d mod 256 = j mod 256 -> d = j.
Proof.
  intros P d j H -> E.
  assert (d mod 256 = (P + 1) mod 256) as M by exact E.
  pose proof (Z.div_mod d 256 ltac:(lia)). pose proof (Z.div_mod (P + 1) 256 ltac:(lia)). nia.
Qed.

(* What a piece of the work of the wheel did, between pointers P and P'. *)
Record did (now : Z) (P P' : Z -> Z) (w w' : wheel) (os : list (rxm * outcome)) : Prop := {
  d_inv : inv P' w';
  d_flows : same_flows (fcbs w) (fcbs w');
  d_prv : forall l, prv_rxm w' l = prv_rxm w l;
  (* every entry that was handled was on the wheel, or came back during the
     work, and its slot lies between the pointers *)
  d_due : forall r o, In (r, o) os -> exists l x,
            place (r_at r) (r_rto r) = Some (l, x) /\ 0 <= r_rto r /\ P l < due l r <= P' l;
  d_out : forall r o, In (r, o) os ->
     (again o <> None -> alive (fcbs w (r_flow r)) = true /\
                         before (r_seqno r) (snd_lwe (fcbs w (r_flow r))) = false) /\
     (o = Removed -> alive (fcbs w (r_flow r)) = false \/
                     before (r_seqno r) (snd_lwe (fcbs w (r_flow r))) = true);
  d_from : forall l x e, In e (rxms w' l x) -> In e (rxms w l x) \/
    (exists r o rto, In (r, o) os /\ again o = Some rto /\ e = renew r now rto);
  d_kept : forall l x e, In e (rxms w l x) -> In e (rxms w' l x) \/ exists o, In (e, o) os;
  d_again : forall r o rto, In (r, o) os -> again o = Some rto ->
    exists l x, In (renew r now rto) (rxms w' l x)
}.

Lemma good_mono : forall P P' now o, (forall l, P l <= P' l) -> good P now o -> good P' now o.
Proof.
  intros P P' now o H G. destruct o; cbn in *; auto; destruct G as [G0 G]; split; auto;
    intros l x Pl; specialize (G l x Pl); specialize (H l); lia.
Qed.

Lemma one_slot_spec : forall env now i w w' os P,
  one_slot env now i (P i + 1) w = (w', os) -> inv P w -> 0 <= i < 3 ->
  (forall l, 0 <= l < 3 -> P l <= aslot l now) -> P i + 1 <= aslot i now ->
  Forall (fun p => good P now (snd p)) os ->
  did now P (put1 P i (P i + 1)) w w' os.
Proof.
  intros env now i w w' os P E I Hi Q Qi G. unfold one_slot in E. rewrite land255 in E.
  set (x0 := (P i + 1) mod 256) in *. set (P' := put1 P i (P i + 1)).
  assert (PP : forall l, P l <= P' l) by (intros l; unfold P', put1; destruct (Z.eqb_spec l i); [subst; lia | lia]).
  assert (Cl : inv P' (Wheel (put (rxms w) i x0 []) (prv_rxm w) (fcbs w))).
  { intros l x e He. cbn [rxms] in He. unfold put in He.
    destruct (Z.eqb_spec l i) as [X|X]; cbn [andb] in He.
    - subst l. destruct (Z.eqb_spec x x0) as [Y|Y]; [contradiction|].
      destruct (I i x e He) as (J1 & J2 & J3). destruct (place_spec _ _ _ _ J1) as (_ & J4 & _).
      split; [exact J1|]. split; [exact J2|]. unfold P', put1. rewrite Z.eqb_refl.
      assert (due i e <> P i + 1); [|lia].
      intros D. apply Y. rewrite J4. unfold x0. f_equal. exact D.
    - destruct (I l x e He) as (J1 & J2 & J3). split; [exact J1|]. split; [exact J2|].
      unfold P', put1. destruct (Z.eqb_spec l i); [contradiction | exact J3]. }
  destruct (handle_all_spec _ _ _ _ _ _ E) as (S1 & S2 & S3 & S4 & S5). cbn [fcbs prv_rxm rxms] in *.
  assert (Due : forall r o, In (r, o) os -> In r (rxms w i x0)).
  { intros r o H. rewrite <- S1. apply in_map_iff. exists (r, o). auto. }
  constructor.
  - apply (handle_all_inv _ _ _ _ _ _ _ E); [exact Cl| |].
    + intros l Hl. unfold P', put1. destruct (Z.eqb_spec l i); [subst; lia | auto].
    + eapply Forall_impl; [|exact G]. intros p. apply good_mono. exact PP.
  - exact S2.
  - intros l. now rewrite S3.
  - intros r o H. apply Due in H. destruct (I i x0 r H) as (J1 & J2 & J3).
    exists i, x0. split; [exact J1|]. split; [exact J2|]. unfold P', put1. rewrite Z.eqb_refl.
    destruct (place_spec _ _ _ _ J1) as (_ & J4 & _).
    rewrite (same_slot (P i) (due i r) (P i + 1) J3 eq_refl); [lia|].
    unfold due. rewrite <- J4. reflexivity.
  - exact S5.
  - intros l x e He. apply S4 in He. destruct He as [He | (r & o & rto & H1 & H2 & _ & H4)].
    + left. cbn [rxms] in He. unfold put in He. destruct ((l =? i) && (x =? x0)); [contradiction | exact He].
    + right. exists r, o, rto. auto.
  - intros l x e He. destruct ((l =? i) && (x =? x0)) eqn:C.
    + right. apply andb_true_iff in C. destruct C as [C1 C2]. apply Z.eqb_eq in C1, C2. subst l x.
      rewrite <- S1 in He. apply in_map_iff in He. destruct He as ([r o] & X & He). cbn in X. subst r. eauto.
    + left. apply S4. left. cbn [rxms]. unfold put. rewrite C. exact He.
  - intros r o rto H1 H2. destruct (S5 r o H1) as [_ _].
    assert (Pl : exists l x, place now rto = Some (l, x)).
    { clear - E H1 H2. revert E. generalize (Wheel (put (rxms w) i x0 []) (prv_rxm w) (fcbs w)). generalize (rxms w i x0).
      intros l. revert os H1. induction l as [|a l IH]; intros os H1 w0 E; cbn [handle_all] in E.
      - injection E as <- <-. contradiction.
      - destruct (handle env now w0 a) as [w1 o1] eqn:E1. destruct (handle_all env now w1 l) as [w2 os2] eqn:E2.
        injection E as <- <-. destruct H1 as [H1|H1].
        + injection H1 as -> ->. destruct (handle_spec _ _ _ _ _ _ E1) as (_ & _ & A3 & _).
          destruct (A3 rto H2) as (_ & _ & lv & x & Pl & _). eauto.
        + apply (IH os2 H1 w1 E2). }
    destruct Pl as (l & x & Pl). exists l, x. apply S4. right. exists r, o, rto. auto.
Qed.

Lemma did_trans : forall now P1 P2 P3 w1 w2 w3 o1 o2,
  (forall l, P1 l <= P2 l) -> (forall l, P2 l <= P3 l) ->
  did now P1 P2 w1 w2 o1 -> did now P2 P3 w2 w3 o2 ->
  (forall l, 0 <= l < 3 -> P3 l <= aslot l now) ->
  did now P1 P3 w1 w3 (o1 ++ o2).
Proof.
  intros now P1 P2 P3 w1 w2 w3 o1 o2 M1 M2 [A1 A2 A3 A4 A5 A6 A7 A8] [B1 B2 B3 B4 B5 B6 B7 B8] Q.
  constructor.
  - exact B1.
  - eapply same_flows_trans; eauto.
  - intros l. now rewrite B3.
  - intros r o H. apply in_app_iff in H. destruct H as [H|H].
    + destruct (A4 r o H) as (l & x & H1 & H2 & H3). exists l, x. specialize (M2 l). split; [auto|]. split; [auto|lia].
    + destruct (B4 r o H) as (l & x & H1 & H2 & H3). exists l, x. specialize (M1 l). split; [auto|]. split; [auto|lia].
  - intros r o H. apply in_app_iff in H. destruct H as [H|H]; [auto|].
    destruct (A2 (r_flow r)) as (Z1 & Z2 & _). rewrite Z1, Z2. apply B5; exact H.
  - intros l x e He. destruct (B6 l x e He) as [H | (r & o & rto & H1 & H2 & H3)].
    + destruct (A6 l x e H) as [H'| (r & o & rto & H1 & H2 & H3)]; [auto|].
      right. exists r, o, rto. rewrite in_app_iff. auto.
    + right. exists r, o, rto. rewrite in_app_iff. auto.
  - intros l x e He. destruct (A7 l x e He) as [H|[o H]].
    + destruct (B7 l x e H) as [H'|[o H']]; [auto|]. right. exists o. apply in_app_iff. auto.
    + right. exists o. apply in_app_iff. auto.
  - intros r o rto H1 H2. apply in_app_iff in H1. destruct H1 as [H1|H1].
    + destruct (A8 r o rto H1 H2) as (l & x & H). destruct (B7 l x _ H) as [H'|[o' H']]; [eauto|].
      (* it came up again in the second part: its slot is past now *)
      destruct (B4 _ _ H') as (l' & x' & C1 & C2 & C3).
      destruct (place_spec _ _ _ _ C1) as (L & _ & _). specialize (Q l' L).
      unfold due, renew in C3. cbn [r_at r_rto] in *.
      assert (0 <= aslot l' rto) by (unfold aslot; apply Z.shiftr_nonneg; exact C2). lia.
    + eauto.
Qed.

Lemma did_refl : forall now P w, inv P w -> did now P P w w [].
Proof.
  intros now P w I. constructor; auto; try contradiction; intros; try contradiction.
  apply same_flows_refl.
Qed.

Lemma did_ext : forall now P P1 P2 w w' os, (forall l, P1 l = P2 l) -> did now P P1 w w' os -> did now P P2 w w' os.
Proof.
  intros now P P1 P2 w w' os E [A1 A2 A3 A4 A5 A6 A7 A8]. constructor; auto.
  - intros l x e He. rewrite <- E. auto.
  - intros r o H. destruct (A4 r o H) as (l & x & H1 & H2 & H3). exists l, x. rewrite <- E. auto.
Qed.

Lemma one_slot_ext : forall env now i j j' w, j mod 256 = j' mod 256 -> one_slot env now i j w = one_slot env now i j' w.
Proof. intros. unfold one_slot. rewrite !land255, H. reflexivity. Qed.

Lemma slots_spec : forall env now i n j w w' os P,
  slots env now i j n w = (w', os) -> inv P w -> 0 <= i < 3 -> P i mod 256 = j mod 256 ->
  (forall l, 0 <= l < 3 -> P l <= aslot l now) -> P i + Z.of_nat n <= aslot i now ->
  Forall (fun p => good P now (snd p)) os ->
  did now P (put1 P i (P i + Z.of_nat n)) w w' os.
Proof.
  intros env now i. induction n as [|n IH]; intros j w w' os P E I Hi M Q Qi G; cbn [slots] in E.
  - injection E as <- <-. apply (did_ext _ _ P).
    + intros l. unfold put1. destruct (Z.eqb_spec l i); [subst; lia | reflexivity].
    + apply did_refl. exact I.
  - assert (MM : (j + 1) mod 256 = (P i + 1) mod 256).
    { rewrite (Z.add_mod j 1), (Z.add_mod (P i) 1), M by lia. reflexivity. }
    rewrite (one_slot_ext env now i _ _ w MM) in E.
    destruct (one_slot env now i (P i + 1) w) as [w1 o1] eqn:E1.
    destruct (slots env now i (j + 1) n w1) as [w2 o2] eqn:E2. injection E as <- <-.
    apply Forall_app in G. destruct G as [G1 G2].
    pose proof (one_slot_spec _ _ _ _ _ _ _ E1 I Hi Q ltac:(lia) G1) as D1.
    set (P1 := put1 P i (P i + 1)) in *.
    assert (PP : forall l, P l <= P1 l) by (intros l; unfold P1, put1; destruct (Z.eqb_spec l i); [subst; lia | lia]).
    assert (P1i : P1 i = P i + 1) by (unfold P1, put1; now rewrite Z.eqb_refl).
    assert (Q1 : forall l, 0 <= l < 3 -> P1 l <= aslot l now).
    { intros l Hl. unfold P1, put1. destruct (Z.eqb_spec l i); [subst; lia | auto]. }
    assert (D2 : did now P1 (put1 P1 i (P1 i + Z.of_nat n)) w1 w2 o2).
    { apply (IH _ _ _ _ P1 E2 (d_inv _ _ _ _ _ _ D1) Hi); auto.
      - rewrite P1i, MM. reflexivity.
      - rewrite P1i. lia.
      - eapply Forall_impl; [|exact G2]. intros p. apply good_mono. exact PP. }
    apply (did_ext _ _ (put1 P1 i (P1 i + Z.of_nat n))).
    { intros l. unfold P1, put1. rewrite Z.eqb_refl. destruct (Z.eqb_spec l i); [lia | reflexivity]. }
    apply (did_trans _ _ P1 _ _ w1); auto.
    + intros l. unfold put1. destruct (Z.eqb_spec l i) as [X|X]; [subst; rewrite P1i; lia | lia].
    + intros l Hl. unfold put1. destruct (Z.eqb_spec l i) as [X|X]; [subst; rewrite P1i; lia | auto].
Qed.

Lemma level_spec : forall env now i w w' os P,
  level env now i (aslot i now) w = (w', os) -> inv P w -> 0 <= i < 3 ->
  prv_rxm w i = P i mod 256 ->
  (forall l, 0 <= l < 3 -> P l <= aslot l now) -> aslot i now - P i < 256 ->
  Forall (fun p => good P now (snd p)) os ->
  exists w1, did now P (put1 P i (aslot i now)) w w1 os /\
    rxms w' = rxms w1 /\ fcbs w' = fcbs w1 /\
    (forall l, prv_rxm w' l = if l =? i then aslot i now mod 256 else prv_rxm w l).
Proof.
  intros env now i w w' os P E I Hi Pv Q Gap G. unfold level in E. rewrite land255, Pv in E.
  change RXMQ_SLOTS with 256 in E. specialize (Q i Hi) as Qi.
  assert (N : (if aslot i now mod 256 <? P i mod 256 then aslot i now mod 256 + 256 else aslot i now mod 256) -
              P i mod 256 = aslot i now - P i).
  { pose proof (Z.div_mod (aslot i now) 256 ltac:(lia)). pose proof (Z.div_mod (P i) 256 ltac:(lia)).
    pose proof (Z.mod_pos_bound (aslot i now) 256 ltac:(lia)). pose proof (Z.mod_pos_bound (P i) 256 ltac:(lia)).
    destruct (aslot i now mod 256 <? P i mod 256) eqn:C; nia. }
  rewrite N in E.
  destruct (slots env now i (P i mod 256) (Z.to_nat (aslot i now - P i)) w) as [w1 o] eqn:Es.
  injection E as <- <-. exists w1.
  assert (D : did now P (put1 P i (P i + Z.of_nat (Z.to_nat (aslot i now - P i)))) w w1 o).
  { apply (slots_spec _ _ _ _ _ _ _ _ _ Es); auto; [now rewrite Z.mod_mod by lia | lia]. }
  split; [|split; [reflexivity|split; [reflexivity|]]].
  - eapply did_ext; [|exact D]. intros l. unfold put1. destruct (l =? i); [lia | reflexivity].
  - intros l. cbn [prv_rxm]. unfold put1. destruct (l =? i); [reflexivity|]. apply (d_prv _ _ _ _ _ _ D).
Qed.
