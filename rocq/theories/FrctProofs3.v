(* The invariant of a reliable flow is kept by every action. *)
From Coq Require Import NArith ZArith List Bool Lia ZifyBool ZifyNat.
From Verif Require Import SeqNoModel SeqNoProofs FrctModel FrctSpec FrctProofs FrctProofs2.
Import ListNotations.
Open Scope Z_scope.

Section Steps.
Variables m da dr : Z.
Hypothesis Hm : 0 <= m.
Hypothesis Ha : 0 <= da.
Hypothesis Hr : 0 <= dr.

Notation inv_at := (inv_at m da dr).
Notation inv := (inv m da dr).

Definition ok (s : flow) (ac : action) : Prop :=
  possible s ac /\ half_space s ac /\ run_heard s ac.

Lemma inactive_rcv : forall f now lb atr q i, core_rcv f = (lb, atr, i, true, q) ->
  rcv_inactive f now = true <-> sec now - sec atr > i.
Proof. intros f now lb atr q i E. injection E as E1 E2 E3 E4 E5. unfold rcv_inactive. rewrite E2, E3. lia. Qed.

Lemma inactive_snd : forall f now l w ats i, core_snd f = (l, w, ats, i, true) ->
  snd_inactive f now = true <-> sec now - sec ats > i.
Proof. intros f now l w ats i E. injection E as E1 E2 E3 E4 E5. unfold snd_inactive. rewrite E3, E4. lia. Qed.

Lemma control_in : forall x now ps fl, In fl (control x now ps) ->
  exists p, In p ps /\ fl = Flight p [] now 0 (zlen (got x)).
Proof.
  intros x now ps fl H. unfold control in H. apply in_map_iff in H. destruct H as (p & <- & H). eauto.
Qed.

(* Nothing of what A sends as control packets matters. *)
Lemma control_xy : forall x now ps w g r0 s0 fl,
  (forall p, In p ps -> p_data p = false /\ p_drf p = false) -> In fl (control x now ps) ->
  (p_data (f_hdr fl) = true ->
   good_data m dr w (zlen (g : list data)) now r0 s0 (f_hdr fl) (f_body fl) (f_sent fl) (f_no fl)) /\
  (p_data (f_hdr fl) = false -> p_drf (f_hdr fl) = false).
Proof.
  intros x now ps w g r0 s0 fl H Hf. apply control_in in Hf. destruct Hf as (p & Hp & ->).
  destruct (H p Hp) as [H1 H2]. cbn. rewrite H1, H2. split; [discriminate | auto].
Qed.

Lemma step_A : forall s now e s', inv s -> ok s (A, now, e) ->
  flow_step s (A, now, e) = Ok s' -> inv s'.
Proof.
  intros s now e s' Iv (Pos & Half & Hrd) St.
  destruct Iv as (r0 & s0 & la & ats & lb & atr & q & Cx & Cy & Sx & Ry & Fx & Fy & I).
  destruct Pos as [Tm Pos].
  pose proof (inv_later m da dr _ _ _ _ _ _ _ _ _ _ _ _ _ _ _ _ I Tm) as I1. clear I.
  cbn [flow_step] in St. destruct (ep_step (ea s) now e) as [[x out]|] eqn:Es; [|discriminate].
  injection St as <-. destruct s as [sa sb xab xba ck aw]. cbn [ea eb nab nba clock await] in *.
  destruct e as [d rnd | | fl | | n full wr | | | ]; cbn [ep_step] in Es.
  - (* Write *)
    destruct (frcti_snd (fr sa) now rnd) as [[f h]|] eqn:E; [|discriminate].
    injection Es as <- <-. pose proof Sx as Sx0. injection Sx as L1 L2 L3 L4 L5.
    destruct (snd_core _ _ _ _ _ E L5) as (U1 & U2 & U3 & U4 & U5 & U6 & U7 & U8 & _).
    cbn [half_space ea] in Half. cbn [run_heard ea eb] in Hrd.
    assert (Fk : f_rtx (rcv_cr f) = true) by (injection U3 as _ _ _ -> _; exact Fx).
    injection U2 as P1 P2 P3 P4 P5. rewrite P5. cbn [andb].
    destruct (snd_inactive (fr sa) now) eqn:In.
    + rewrite orb_true_r.
      assert (Q : sec now - sec ats > 3 * m + da + dr + 1) by (apply (inactive_snd _ _ _ _ _ _ Sx0), In).
      assert (Qr : sec now - sec atr > 2 * m + da + dr + 1) by (eapply inactive_rcv; eauto).
      assert (Qe : seq r0 s0 (zlen (wrote sa)) = seq r0 s0 la) by (rewrite <- L1, <- L2; auto).
      exists (zlen (wrote sa)), rnd, (zlen (wrote sa)), now, lb, atr, q. cbn [ea eb clock await nab nba fr wrote got rxms].
      split; [rewrite U4; exact Cx|]. split; [exact Cy|]. split.
      { unfold core_snd. rewrite P1, P2, P3, P4, P5, L4. rewrite zlen_app. cbn [zlen length Z.of_nat].
        assert (X1 : w32 rnd = seq (zlen (wrote sa)) rnd (zlen (wrote sa))) by (unfold seq; f_equal; lia).
        rewrite X1 at 2. rewrite seq_succ. rewrite X1. reflexivity. }
      split; [exact Ry|]. split; [exact Fk|]. split; [exact Fy|].
      eapply inv_write_new; eauto.
    + rewrite orb_false_r.
      exists r0, s0, la, now, lb, atr, q. cbn [ea eb clock await nab nba fr wrote got rxms].
      split; [rewrite U4; exact Cx|]. split; [exact Cy|]. split.
      { unfold core_snd. rewrite P1, P2, P3, P4, P5, L1, L2, L4. rewrite seq_succ, zlen_app. reflexivity. }
      split; [exact Ry|]. split; [exact Fk|]. split; [exact Fy|].
      eapply inv_write_same; eauto.
      * rewrite L1, L2 in Half. unfold seq, w32 in Half. rewrite sub_wrap in Half.
        assert (W : 0 <= zlen (wrote sa) - la < 2 ^ 31) by (destruct I1; lia).
        rewrite Z.mod_small in Half; [lia|].
        unfold two32. change (2 ^ 31) with 2147483648 in W. change (2 ^ 32) with 4294967296. lia.
      * rewrite U7, L2. reflexivity.
      * rewrite U8, L1, L2. reflexivity.
  - (* Read *)
    destruct (frcti_queued_pdu (fr sa)) as [f o] eqn:E.
    destruct (queued_pdu_core _ _ _ E) as (U1 & U2 & U3).
    exists r0, s0, la, ats, lb, atr, q.
    assert (Fk : f_rtx (rcv_cr f) = true).
    { destruct o; [destruct U3 as [_ U3]; injection U3 as _ _ _ -> _; exact Fx | destruct U3 as [_ ->]; exact Fx]. }
    destruct o as [d|]; injection Es as <- <-;
      cbn [ea eb clock await nab nba fr wrote got rxms]; rewrite app_nil_r;
      (split; [rewrite U2; exact Cx|]); (split; [exact Cy|]); (split; [rewrite U1; exact Sx|]); auto.
  - (* Recv *)
    destruct (frcti_rcv (fr sa) now (f_hdr fl) (f_body fl)) as [[f t] ps] eqn:E.
    injection Es as <- <-.
    assert (A0 : 0 <= FrctModel.a (fr sa)).
    { unfold core_cfg in Cx. injection Cx as _ -> _. unfold ns, BILLION. lia. }
    destruct (frcti_rcv_core _ _ _ _ _ _ _ E Fx A0) as ((l & U1 & U1') & U2 & U3).
    assert (Fk : f_rtx (rcv_cr f) = true).
    { destruct U3 as [(_ & _ & _ & U3 & _) | (l0 & _ & _ & _ & [U3 | (q0 & _ & U3)] & _)];
        injection U3 as _ _ _ -> _; auto. }
    assert (Ou : forall p, In p ps -> p_data p = false /\ p_drf p = false).
    { intros p Hp. destruct U3 as [(_ & _ & _ & _ & U3) | (l0 & _ & _ & _ & _ & U3)];
        destruct (U3 p Hp) as (X1 & X2 & _); auto. }
    assert (Kx : exists k, l = seq r0 s0 k /\ la <= k <= zlen (got sb)).
    { injection Sx as L1 L2 L3 L4 L5. destruct U1' as [-> | (Pa & Af & ->)].
      - exists la. split; [exact L1|]. destruct I1. lia.
      - cbn [half_space ea] in Half. specialize (Half Pa). destruct Pos as [Pi Pl].
        destruct I1. destruct (v_nyx fl Pi Pa) as (_ & [(K1 & K2) | K]).
        + rewrite K2, L1 in Af. rewrite seq_after in Af by lia. exists (f_got fl). split; [exact K2 | lia].
        + unfold core_cfg in Cx. injection Cx as Cm _ _. rewrite Cm in Pl. unfold ns in *. lia. }
    destruct Kx as (k & -> & Kb).
    exists r0, s0, k, ats, lb, atr, q. cbn [ea eb clock await nab nba fr wrote got rxms].
    split; [rewrite U2; exact Cx|]. split; [exact Cy|].
    split; [rewrite U1; injection Sx as L1 L2 L3 L4 L5; rewrite L2, L3, L4, L5; reflexivity|].
    split; [exact Ry|]. split; [exact Fk|]. split; [exact Fy|].
    apply inv_more_xy; [eapply inv_acked; eauto|]. intros f0 Hf. eapply control_xy; eauto.
  - (* Ack *)
    destruct (send_frct_pkt (fr sa) now) as [f ps] eqn:E. injection Es as <- <-.
    destruct (send_frct_pkt_core _ _ _ _ E) as (U1 & U2 & U3 & U4).
    exists r0, s0, la, ats, lb, atr, q. cbn [ea eb clock await nab nba fr wrote got rxms].
    split; [rewrite U3; exact Cx|]. split; [exact Cy|]. split; [rewrite U1; exact Sx|].
    split; [exact Ry|]. split; [injection U2 as _ _ _ -> _; exact Fx|]. split; [exact Fy|].
    apply inv_more_xy; auto. intros f0 Hf. eapply control_xy; eauto.
    intros p Hp. destruct (U4 p Hp) as (X1 & X2 & _). auto.
  - (* Fire *)
    destruct (nth_error (rxms sa) n) as [e|] eqn:En.
    2:{ injection Es as <- <-. exists r0, s0, la, ats, lb, atr, q.
        cbn [ea eb clock await nab nba]. rewrite app_nil_r. auto 10. }
    assert (Ie : In e (rxms sa)) by (eapply nth_error_In; eauto).
    pose proof (rxm_fire_core (fr sa) now e full wr) as U.
    destruct (rxm_fire (fr sa) now e full wr) as [ | | f | f p] eqn:E; injection Es as <- <-.
    + exists r0, s0, la, ats, lb, atr, q. cbn [ea eb clock await nab nba fr wrote got rxms].
      rewrite app_nil_r. repeat (split; [assumption|]). eapply inv_less_rx; eauto.
      intros x. apply drop_nth_incl.
    + exists r0, s0, la, ats, lb, atr, q. cbn [ea eb clock await nab nba fr wrote got rxms].
      rewrite app_nil_r. repeat (split; [assumption|]). eapply inv_less_rx; eauto.
      intros x. apply drop_nth_incl.
    + destruct U as (U1 & U2 & U3).
      exists r0, s0, la, ats, lb, atr, q. cbn [ea eb clock await nab nba fr wrote got rxms].
      rewrite app_nil_r. split; [rewrite U3; exact Cx|]. split; [exact Cy|]. split; [rewrite U1; exact Sx|].
      split; [exact Ry|]. split; [injection U2 as _ _ _ -> _; exact Fx|]. split; [exact Fy | exact I1].
    + destruct U as (U1 & U2 & U3 & U4 & U5).
      exists r0, s0, la, ats, lb, atr, q. cbn [ea eb clock await nab nba fr wrote got rxms].
      split; [rewrite U3; exact Cx|]. split; [exact Cy|]. split; [rewrite U1; exact Sx|].
      split; [exact Ry|]. split; [injection U2 as _ _ _ -> _; exact Fx|]. split; [exact Fy|].
      apply inv_more_xy; [exact I1|]. intros f0 [<- | []]. cbn [f_hdr f_body f_sent f_no].
      assert (G : good_rxm m dr (wrote sa) (zlen (got sb)) now r0 s0 e)
        by (destruct I1; rewrite Forall_forall in v_rx; auto).
      destruct G as (G1 & G2 & G3 & G4 & G5 & G6).
      rewrite U4. unfold set_ackno. cbn [p_data p_drf]. split; [|rewrite G1; discriminate].
      intros _. unfold core_cfg in Cx. injection Cx as _ _ Cr. rewrite Cr in U5.
      unfold good_data. cbn [p_seqno p_drf].
      split; [exists (x_t0 e); split; [exact G3 | lia]|]. split; [exact G4|]. split; [|exact G6].
      intros X. specialize (G5 X). unfold ns, BILLION in *. lia.
  - (* Wopen *)
    destruct (frcti_is_window_open (fr sa) now) as [[f b] ps] eqn:E. injection Es as <- <-.
    destruct (window_open_core _ _ _ _ _ E) as (U1 & U2 & U3 & U4).
    exists r0, s0, la, ats, lb, atr, q. cbn [ea eb clock await nab nba fr wrote got rxms].
    split; [rewrite U3; exact Cx|]. split; [exact Cy|]. split; [rewrite U1; exact Sx|].
    split; [exact Ry|]. split; [injection U2 as _ _ _ -> _; exact Fx|]. split; [exact Fy|].
    apply inv_more_xy; auto. intros f0 Hf. eapply control_xy; eauto.
    intros p Hp. destruct (U4 p Hp) as (X1 & X2 & _). auto.
  - (* Wblock *)
    injection Es as <- <-. destruct (before_wait_core (fr sa) now) as (U1 & U2 & U3).
    exists r0, s0, la, ats, lb, atr, q. cbn [ea eb clock await nab nba fr wrote got rxms].
    rewrite app_nil_r. split; [rewrite U3; exact Cx|]. split; [exact Cy|]. split; [rewrite U1; exact Sx|].
    split; [exact Ry|]. split; [injection U2 as _ _ _ -> _; exact Fx|]. split; [exact Fy | exact I1].
  - (* Wtimeout *)
    destruct (window_timeout (fr sa) now) as [[f b] ps] eqn:E. injection Es as <- <-.
    destruct (window_timeout_core _ _ _ _ _ E) as (U1 & U2 & U3 & U4).
    exists r0, s0, la, ats, lb, atr, q. cbn [ea eb clock await nab nba fr wrote got rxms].
    split; [rewrite U3; exact Cx|]. split; [exact Cy|]. split; [rewrite U1; exact Sx|].
    split; [exact Ry|]. split; [injection U2 as _ _ _ -> _; exact Fx|]. split; [exact Fy|].
    apply inv_more_xy; auto. intros f0 Hf. eapply control_xy; eauto.
    intros p Hp. destruct (U4 p Hp) as (X1 & X2 & _). auto.
Qed.

Lemma step_B : forall s now e s', inv s -> ok s (B, now, e) ->
  flow_step s (B, now, e) = Ok s' -> inv s'.
Proof.
  intros s now e s' Iv (Pos & Half & Hrd) St.
  destruct Iv as (r0 & s0 & la & ats & lb & atr & q & Cx & Cy & Sx & Ry & Fx & Fy & I).
  destruct Pos as [Tm Pos].
  pose proof (inv_later m da dr _ _ _ _ _ _ _ _ _ _ _ _ _ _ _ _ I Tm) as I1. clear I.
  cbn [flow_step] in St. destruct (ep_step (eb s) now e) as [[y out]|] eqn:Es; [|discriminate].
  injection St as <-. destruct s as [sa sb xab xba ck aw]. cbn [ea eb nab nba clock await] in *.
  assert (Cy' := Cy). unfold core_cfg in Cy'. injection Cy' as Cm Ca Cr.
  destruct e as [d rnd | | fl | | n full wr | | | ]; cbn [ep_step] in Es.
  - (* Write *)
    destruct (frcti_snd (fr sb) now rnd) as [[f h]|] eqn:E; [|discriminate].
    injection Es as <- <-.
    destruct (snd_core _ _ _ _ _ E Fy) as (U1 & U2 & U3 & U4 & U5 & U6 & U7 & U8 & U9).
    exists r0, s0, la, ats, lb, atr, q. cbn [ea eb clock await nab nba fr wrote got rxms].
    split; [exact Cx|]. split; [rewrite U4; exact Cy|]. split; [exact Sx|].
    split; [rewrite U3; exact Ry|]. split; [exact Fx|]. split; [injection U2 as _ _ _ _ ->; reflexivity|].
    injection Ry as R1 R2 R3 R4 R5.
    assert (Tk : p_ack h = true -> now < atr + ns da + BILLION).
    { intros X. destruct (U9 X) as [_ Y]. rewrite R2, Ca in Y. pose proof (sec_le now). pose proof (sec_le atr).
      unfold ns, BILLION in *. lia. }
    apply inv_more_yx.
    + destruct (f_rtx (snd_cr f) && rxm_fits f); [|exact I1].
      destruct I1. constructor; auto.
      intros e He X. apply in_app_or in He. destruct He as [He | [<- | []]]; [auto|]. cbn in *. auto.
    + intros fl [<- | []] X. cbn in X. destruct (U9 X) as [Y _]. rewrite R1 in Y.
      eapply ack_good; eauto. specialize (Tk X). unfold ns, BILLION in *. lia.
  - (* Read *)
    destruct (frcti_queued_pdu (fr sb)) as [f o] eqn:E.
    destruct (queued_pdu_core _ _ _ E) as (U1 & U2 & U3).
    destruct o as [d|]; injection Es as <- <-.
    + destruct U3 as [U3 U4]. injection Ry as R1 R2 R3 R4 R5.
      rewrite R1, R2, R3, R4, R5 in U4. rewrite R1, R5 in U3.
      exists r0, s0, la, ats, (w32 (lb + 1)), atr, (rq_set q (slot lb) None).
      cbn [ea eb clock await nab nba fr wrote got rxms]. rewrite app_nil_r.
      split; [exact Cx|]. split; [rewrite U2; exact Cy|]. split; [exact Sx|].
      split; [exact U4|]. split; [exact Fx|]. split; [injection U1 as _ _ _ _ ->; exact Fy|].
      eapply inv_read; eauto.
    + destruct U3 as [_ ->]. exists r0, s0, la, ats, lb, atr, q.
      cbn [ea eb clock await nab nba fr wrote got rxms]. rewrite app_nil_r.
      auto 10.
  - (* Recv *)
    destruct (frcti_rcv (fr sb) now (f_hdr fl) (f_body fl)) as [[f t] ps] eqn:E.
    injection Es as <- <-. destruct Pos as [Pi Pl].
    unfold core_cfg in Cx. assert (Cx' := Cx). injection Cx' as Cm' _ _. rewrite Cm' in Pl.
    assert (A0 : 0 <= FrctModel.a (fr sb)) by (rewrite Ca; unfold ns, BILLION; lia).
    assert (R4 : f_rtx (rcv_cr (fr sb)) = true) by (injection Ry as _ _ _ -> _; reflexivity).
    destruct (frcti_rcv_core _ _ _ _ _ _ _ E R4 A0) as ((l & U1 & _) & U2 & U3).
    assert (Fk : f_rtx (snd_cr f) = true) by (injection U1 as _ _ _ _ ->; exact Fy).
    assert (Ia : rcv_inactive (fr sb) now = true <-> sec now - sec atr > 2 * m + da + dr + 1)
      by (eapply inactive_rcv; eauto).
    assert (Ry' := Ry). injection Ry' as R1 R2 R3 _ R5.
    cbn [run_heard await] in Hrd. cbn [half_space ea] in Half.
    destruct U3 as [(V1 & V2 & V3 & V4 & V5) | (l0 & W0 & W1 & W2 & W3 & W4)].
    + (* not in the run: dropped *)
      assert (Aw : aw && negb (p_data (f_hdr fl) && p_drf (f_hdr fl)) = aw)
        by (rewrite V2, andb_false_r; cbn; apply andb_true_r).
      rewrite Aw. exists r0, s0, la, ats, lb, atr, q.
      cbn [ea eb clock await nab nba fr wrote got rxms].
      split; [exact Cx|]. split; [rewrite U2; exact Cy|]. split; [exact Sx|].
      split; [rewrite V4; exact Ry|]. split; [exact Fx|]. split; [exact Fk|].
      apply inv_more_yx; [exact I1|]. intros f0 Hf X. apply control_in in Hf.
      destruct Hf as (p & Hp & ->). destruct (V5 p Hp) as (_ & _ & Y). cbn [f_hdr] in X.
      destruct (Y X) as [_ Y2]. apply Ia, idle in V1. rewrite R2, Ca in Y2. exfalso.
      unfold ns, BILLION in *. lia.
    + (* in the run, before or from now on *)
      assert (Dn : rcv_inactive (fr sb) now = true -> p_drf (f_hdr fl) = true ->
                   p_data (f_hdr fl) = true /\ p_seqno (f_hdr fl) = seq r0 s0 (zlen (got sb))).
      { intros X Y. apply Ia in X.
        destruct (drf_next m da dr Hm Ha _ _ _ _ _ _ _ _ _ _ _ _ _ _ _ fl I1 Pi Pl X Y) as (Z1 & _ & Z2).
        auto. }
      assert (Sy : l0 = seq r0 s0 (zlen (got sb)) /\
                   queue_ok (wrote sa) (zlen (got sb)) atr (seq r0 s0 (zlen (got sb))) q /\
                   aw && negb (p_data (f_hdr fl) && p_drf (f_hdr fl)) = false).
      { destruct I1 as [_ _ _ _ _ _ _ Sc _ _ _ _].
        destruct Sc as [(S1 & S2 & S3) | (S1 & S2 & S3 & S4)].
        - subst aw. rewrite <- S2. split; [|split; [exact S3 | reflexivity]].
          destruct W0 as [-> | (X1 & X2 & ->)]; [exact R1|]. destruct (Dn X1 X2) as [_ Y]. congruence.
        - apply Ia in S4. subst aw. specialize (Hrd eq_refl).
          destruct (p_drf (f_hdr fl)) eqn:Dr.
          + destruct (Dn S4 eq_refl) as [Y1 Y2]. rewrite (W2 S4 eq_refl), Y2, Y1.
            split; [reflexivity|]. split; [apply queue_any; exact S3 | reflexivity].
          + rewrite (W1 S4 eq_refl) in Hrd. discriminate. }
      destruct Sy as (-> & Sq & ->).
      assert (Ok0 : forall q', inv_at (wrote sa) (got sb) (rxms sa) (rxms sb) xab xba now false r0 s0 la ats
                 (seq r0 s0 (zlen (got sb))) now q' ->
               core_rcv f = (seq r0 s0 (zlen (got sb)), now, inact (rcv_cr (fr sb)), true, q') ->
               inv (Flow sa (Ep f (rxms sb) (wrote sb) (got sb)) xab
                      (xba ++ control sb now ps) now false)).
      { intros q' J Jc. exists r0, s0, la, ats, (seq r0 s0 (zlen (got sb))), now, q'.
        cbn [ea eb clock await nab nba fr wrote got rxms].
        split; [exact Cx|]. split; [rewrite U2; exact Cy|]. split; [exact Sx|].
        split; [rewrite Jc, R3; reflexivity|]. split; [exact Fx|]. split; [exact Fk|].
        apply inv_more_yx; [exact J|]. intros f0 Hf X. apply control_in in Hf.
        destruct Hf as (p & Hp & ->). destruct (W4 p Hp) as (_ & _ & Y). cbn [f_hdr] in X.
        eapply ack_good; eauto. unfold ns, BILLION. lia. }
      destruct W3 as [W3 | (q' & (Q1 & Q2 & Q3 & Q4 & Q5) & W3)].
      * eapply Ok0; [|rewrite W3, R5; reflexivity]. eapply inv_rcv_same; eauto.
      * eapply Ok0; [|exact W3]. rewrite Q5, R5. eapply inv_rcv_store; eauto.
  - (* Ack *)
    destruct (send_frct_pkt (fr sb) now) as [f ps] eqn:E. injection Es as <- <-.
    destruct (send_frct_pkt_core _ _ _ _ E) as (U1 & U2 & U3 & U4).
    exists r0, s0, la, ats, lb, atr, q. cbn [ea eb clock await nab nba fr wrote got rxms].
    split; [exact Cx|]. split; [rewrite U3; exact Cy|]. split; [exact Sx|].
    split; [rewrite U2; exact Ry|]. split; [exact Fx|]. split; [injection U1 as _ _ _ _ ->; exact Fy|].
    injection Ry as R1 R2 R3 R4 R5.
    apply inv_more_yx; auto. intros f0 Hf X. apply control_in in Hf. destruct Hf as (p & Hp & ->).
    destruct (U4 p Hp) as (_ & _ & _ & Y1 & Y2). rewrite R1 in Y1. rewrite R2, Ca in Y2.
    eapply ack_good; eauto. unfold ns, BILLION in *. lia.
  - (* Fire *)
    destruct (nth_error (rxms sb) n) as [e|] eqn:En.
    2:{ injection Es as <- <-. exists r0, s0, la, ats, lb, atr, q.
        cbn [ea eb clock await nab nba]. rewrite app_nil_r. auto 10. }
    assert (Ie : In e (rxms sb)) by (eapply nth_error_In; eauto).
    pose proof (rxm_fire_core (fr sb) now e full wr) as U.
    destruct (rxm_fire (fr sb) now e full wr) as [ | | f | f p] eqn:E; injection Es as <- <-.
    + exists r0, s0, la, ats, lb, atr, q. cbn [ea eb clock await nab nba fr wrote got rxms].
      rewrite app_nil_r. repeat (split; [assumption|]). eapply inv_less_ry; eauto.
      intros x. apply drop_nth_incl.
    + exists r0, s0, la, ats, lb, atr, q. cbn [ea eb clock await nab nba fr wrote got rxms].
      rewrite app_nil_r. repeat (split; [assumption|]). eapply inv_less_ry; eauto.
      intros x. apply drop_nth_incl.
    + destruct U as (U1 & U2 & U3).
      exists r0, s0, la, ats, lb, atr, q. cbn [ea eb clock await nab nba fr wrote got rxms].
      rewrite app_nil_r. split; [exact Cx|]. split; [rewrite U3; exact Cy|]. split; [exact Sx|].
      split; [rewrite U2; exact Ry|]. split; [exact Fx|]. split; [injection U1 as _ _ _ _ ->; exact Fy | exact I1].
    + destruct U as (U1 & U2 & U3 & U4 & U5).
      exists r0, s0, la, ats, lb, atr, q. cbn [ea eb clock await nab nba fr wrote got rxms].
      split; [exact Cx|]. split; [rewrite U3; exact Cy|]. split; [exact Sx|].
      split; [rewrite U2; exact Ry|]. split; [exact Fx|]. split; [injection U1 as _ _ _ _ ->; exact Fy|].
      injection Ry as R1 R2 R3 R4 R5.
      apply inv_more_yx; [exact I1|]. intros f0 [<- | []] X. cbn [f_hdr] in X. rewrite U4 in X. cbn in X.
      rewrite Cr in U5.
      assert (x_t0 e < atr + ns da + BILLION) by (destruct I1; auto).
      eapply ack_good; eauto; cbn [f_sent f_hdr f_got].
      * lia.
      * rewrite U4, R1. reflexivity.
  - (* Wopen *)
    destruct (frcti_is_window_open (fr sb) now) as [[f b] ps] eqn:E. injection Es as <- <-.
    destruct (window_open_core _ _ _ _ _ E) as (U1 & U2 & U3 & U4).
    exists r0, s0, la, ats, lb, atr, q. cbn [ea eb clock await nab nba fr wrote got rxms].
    split; [exact Cx|]. split; [rewrite U3; exact Cy|]. split; [exact Sx|].
    split; [rewrite U2; exact Ry|]. split; [exact Fx|]. split; [injection U1 as _ _ _ _ ->; exact Fy|].
    apply inv_more_yx; auto. intros f0 Hf X. apply control_in in Hf. destruct Hf as (p & Hp & ->).
    destruct (U4 p Hp) as (_ & _ & Y). cbn in X. congruence.
  - (* Wblock *)
    injection Es as <- <-. destruct (before_wait_core (fr sb) now) as (U1 & U2 & U3).
    exists r0, s0, la, ats, lb, atr, q. cbn [ea eb clock await nab nba fr wrote got rxms].
    rewrite app_nil_r. split; [exact Cx|]. split; [rewrite U3; exact Cy|]. split; [exact Sx|].
    split; [rewrite U2; exact Ry|]. split; [exact Fx|]. split; [injection U1 as _ _ _ _ ->; exact Fy | exact I1].
  - (* Wtimeout *)
    destruct (window_timeout (fr sb) now) as [[f b] ps] eqn:E. injection Es as <- <-.
    destruct (window_timeout_core _ _ _ _ _ E) as (U1 & U2 & U3 & U4).
    exists r0, s0, la, ats, lb, atr, q. cbn [ea eb clock await nab nba fr wrote got rxms].
    split; [exact Cx|]. split; [rewrite U3; exact Cy|]. split; [exact Sx|].
    split; [rewrite U2; exact Ry|]. split; [exact Fx|]. split; [injection U1 as _ _ _ _ ->; exact Fy|].
    apply inv_more_yx; auto. intros f0 Hf X. apply control_in in Hf. destruct Hf as (p & Hp & ->).
    destruct (U4 p Hp) as (_ & _ & Y). cbn in X. congruence.
Qed.

Lemma inv_init : forall ta tb, inv (flow_init da dr m true ta tb).
Proof.
  intros ta tb.
  assert (D : forall k, (k * BILLION) / BILLION = k) by (intros; apply Z.div_mul; discriminate).
  exists 0, 0, 0, ((sec ta - (3 * m + da + dr + 1 + 1)) * BILLION), 0,
    ((sec tb - (2 * m + da + dr + 1 + 1)) * BILLION), (repeat None (Z.to_nat RQ_SIZE)).
  unfold flow_init, frcti_create. cbn [ea eb nab nba clock await fr wrote got rxms].
  replace (3 * (m * BILLION) + da * BILLION + dr * BILLION) with ((3 * m + da + dr) * BILLION) by lia.
  replace (2 * (m * BILLION) + da * BILLION + dr * BILLION) with ((2 * m + da + dr) * BILLION) by lia.
  rewrite !D.
  split; [reflexivity|]. split; [reflexivity|]. split; [reflexivity|]. split; [reflexivity|].
  split; [reflexivity|]. split; [reflexivity|].
  assert (W : forall i d t, ~ wat [] i d t).
  { intros i d t H. apply wat_lt in H. unfold zlen in H. cbn in H. lia. }
  constructor.
  - unfold zlen. cbn. lia.
  - unfold zlen. cbn [length Z.of_nat]. lia.
  - pose proof (sec_le ta). pose proof (sec_le tb). unfold BILLION in *. lia.
  - intros i d t H. elim (W _ _ _ H).
  - intros i d t H. elim (W _ _ _ H).
  - intros i d H. destruct i; discriminate.
  - apply repeat_length.
  - left. split; [reflexivity|]. split; [reflexivity|]. intros j d _ H.
    exfalso. unfold rq_get in H. rewrite nth_repeat in H. discriminate.
  - constructor.
  - intros fl [].
  - intros fl [].
  - intros e [].
Qed.

Theorem inv_history : forall ta tb s,
  history ok (flow_init da dr m true ta tb) s -> inv s.
Proof.
  induction 1 as [|s [[sd now] e] s' H IH O E]; [apply inv_init|].
  destruct sd; [eapply step_A | eapply step_B]; eauto.
Qed.

End Steps.
