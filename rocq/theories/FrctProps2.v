(* C15: the reassembly queue.  C17: the flow-control window.  C18: the
   retransmission time-out. *)
From Coq Require Import NArith ZArith List Bool Lia ZifyBool ZifyNat Permutation.
From Verif Require Import SeqNoModel SeqNoProofs FrctModel FrctSpec FrctProofs FrctProofs2 FrctRun.
Import ListNotations.
Open Scope Z_scope.

(* ==== C15 ==== *)

(* Whatever happens at an end of a reliable flow, a packet in the queue
   stays where it is, unless it is the one that is read; and a packet enters
   the queue only when it arrives, in a free place. *)
Theorem frct_queue_kept : forall x now e x' out,
  f_rtx (rcv_cr (fr x)) = true -> 
  ep_step x now e = Ok (x', out) ->
  f_rtx (rcv_cr (fr x')) = true /\ length (rq (fr x')) = length (rq (fr x)) /\
  (forall k d, rq_get (rq (fr x)) k = Some d ->
     rq_get (rq (fr x')) k = Some d \/
     (e = Read /\ got x' = got x ++ [d] /\ k = slot (lwe (rcv_cr (fr x))))) /\
  (forall k d, rq_get (rq (fr x')) k = Some d ->
     rq_get (rq (fr x)) k = Some d \/
     exists fl, e = Recv fl /\ d = f_body fl /\ p_data (f_hdr fl) = true /\
       k = slot (p_seqno (f_hdr fl)) /\ rq_get (rq (fr x)) k = None).
Proof.
  intros x now e x' out Hr Es.
  assert (Same : forall f, core_rcv f = core_rcv (fr x) ->
            f_rtx (rcv_cr f) = true /\ length (rq f) = length (rq (fr x)) /\
            (forall k d, rq_get (rq (fr x)) k = Some d -> rq_get (rq f) k = Some d) /\
            (forall k d, rq_get (rq f) k = Some d -> rq_get (rq (fr x)) k = Some d)).
  { intros f E. injection E as _ _ _ E1 E2. rewrite E1, E2. auto. }
  assert (Sm : forall f, core_rcv f = core_rcv (fr x) -> fr x' = f ->
            f_rtx (rcv_cr (fr x')) = true /\ length (rq (fr x')) = length (rq (fr x)) /\
            (forall k d, rq_get (rq (fr x)) k = Some d ->
               rq_get (rq (fr x')) k = Some d \/
               (e = Read /\ got x' = got x ++ [d] /\ k = slot (lwe (rcv_cr (fr x))))) /\
            (forall k d, rq_get (rq (fr x')) k = Some d ->
               rq_get (rq (fr x)) k = Some d \/
               exists fl, e = Recv fl /\ d = f_body fl /\ p_data (f_hdr fl) = true /\
                 k = slot (p_seqno (f_hdr fl)) /\ rq_get (rq (fr x)) k = None)).
  { intros f E Ef. rewrite Ef. destruct (Same f E) as (S1 & S2 & S3 & S4).
    split; [exact S1|]. split; [exact S2|]. split; intros k d X; left; auto. }
  destruct e as [d rnd | | fl | | n full wr | | | ]; cbn [ep_step] in Es.
  - destruct (frcti_snd (fr x) now rnd) as [[f h]|] eqn:E; [|discriminate].
    injection Es as <- <-. apply (Sm f); [|reflexivity].
    unfold frcti_snd in E. destruct (snd_inactive (fr x) now && _); [discriminate|].
    cbv zeta in E. injection E as <- _. unfold core_rcv. cbn.
    destruct (f_rtx (snd_cr (fr x)) && ((sec now - sec (act (rcv_cr (fr x)))) * BILLION <=? a (fr x)));
      destruct (f_rtx (snd_cr (fr x)) && negb (probe (fr x))); reflexivity.
  - destruct (frcti_queued_pdu (fr x)) as [f o] eqn:E.
    destruct (queued_pdu_core _ _ _ E) as (_ & _ & U3).
    destruct o as [d|].
    + injection Es as <- <-. destruct U3 as [U3 U4]. cbn [fr got]. injection U4 as _ _ _ U4 U5.
      rewrite U4, U5. split; [exact Hr|]. split; [apply rq_set_length|]. split.
      * intros k d0 X. destruct (Nat.eq_dec k (slot (lwe (rcv_cr (fr x))))) as [Y|Y].
        -- right. subst k. split; [reflexivity|]. split; [congruence | reflexivity].
        -- left. rewrite rq_get_set_other; auto.
      * intros k d0 X. left. destruct (Nat.eq_dec k (slot (lwe (rcv_cr (fr x))))) as [Y|Y].
        -- subst k. destruct (le_lt_dec (length (rq (fr x))) (slot (lwe (rcv_cr (fr x))))) as [L|L].
           ++ unfold rq_get in X. rewrite nth_overflow in X; [discriminate|]. rewrite rq_set_length. exact L.
           ++ rewrite rq_get_set_same in X by exact L. discriminate.
        -- rewrite rq_get_set_other in X; auto.
    + injection Es as <- <-. destruct U3 as [_ ->]. apply (Sm (fr x)); reflexivity.
  - destruct (frcti_rcv (fr x) now (f_hdr fl) (f_body fl)) as [[f t] ps] eqn:E.
    injection Es as <- <-. cbn [fr got].
    assert (U : rq f = rq (fr x) /\ f_rtx (rcv_cr f) = true \/
                (p_data (f_hdr fl) = true /\ f_rtx (rcv_cr f) = true /\
                 rq_get (rq (fr x)) (slot (p_seqno (f_hdr fl))) = None /\
                 rq f = rq_set (rq (fr x)) (slot (p_seqno (f_hdr fl))) (Some (f_body fl)))).
    { unfold frcti_rcv in E.
      assert (R : forall g, f_rtx (rcv_cr g) = true -> rq g = rq (fr x) ->
                  rcv_active g now (f_hdr fl) (f_body fl) = (f, t, ps) ->
                  rq f = rq (fr x) /\ f_rtx (rcv_cr f) = true \/
                  (p_data (f_hdr fl) = true /\ f_rtx (rcv_cr f) = true /\
                   rq_get (rq (fr x)) (slot (p_seqno (f_hdr fl))) = None /\
                   rq f = rq_set (rq (fr x)) (slot (p_seqno (f_hdr fl))) (Some (f_body fl)))).
      { intros g Hg Hq R. destruct (rcv_active_core _ _ _ _ _ _ _ R Hg) as (_ & _ & [C | (q & St & C)] & _).
        - left. injection C as _ _ _ C1 C2. rewrite C1, C2. auto.
        - right. injection C as _ _ _ C1 C2. destruct St as (S1 & S2 & S3 & S4 & S5).
          rewrite C1, C2, S5, <- Hq. auto. }
      destruct (rcv_inactive (fr x) now).
      - destruct (p_drf (f_hdr fl)).
        + eapply R; [| |exact E]; [exact Hr | reflexivity].
        + destruct (p_data (f_hdr fl)).
          * destruct (drop_core _ _ _ _ _ E) as (_ & _ & C & _). injection C as _ _ _ C1 C2.
            left. rewrite C1, C2. auto.
          * eapply R; [| |exact E]; [exact Hr | reflexivity].
      - eapply R; [| |exact E]; [exact Hr | reflexivity]. }
    destruct U as [[U1 U2] | (U1 & U2 & U3 & U4)].
    + rewrite U1. split; [exact U2|]. split; [reflexivity|]. split; intros; left; assumption.
    + rewrite U4. split; [exact U2|]. split; [apply rq_set_length|]. split.
      * intros k d X. left. rewrite rq_get_set_other; [exact X|]. congruence.
      * intros k d X. destruct (Nat.eq_dec k (slot (p_seqno (f_hdr fl)))) as [Y|Y].
        -- right. exists fl. subst k. split; [reflexivity|].
           destruct (le_lt_dec (length (rq (fr x))) (slot (p_seqno (f_hdr fl)))) as [L|L].
           ++ unfold rq_get in X. rewrite nth_overflow in X; [discriminate|]. rewrite rq_set_length. exact L.
           ++ rewrite rq_get_set_same in X by exact L. injection X as <-. auto.
        -- left. rewrite rq_get_set_other in X; auto.
  - destruct (send_frct_pkt (fr x) now) as [f ps] eqn:E. injection Es as <- <-.
    destruct (send_frct_pkt_core _ _ _ _ E) as (_ & U & _). apply (Sm f); [exact U | reflexivity].
  - destruct (nth_error (rxms x) n) as [e|] eqn:En.
    2:{ injection Es as <- <-. apply (Sm (fr x)); reflexivity. }
    pose proof (rxm_fire_core (fr x) now e full wr) as U.
    destruct (rxm_fire (fr x) now e full wr) as [ | | f | f p] eqn:E; injection Es as <- <-;
      [apply (Sm (fr x)); reflexivity | apply (Sm (fr x)); reflexivity |
       apply (Sm f); [apply U | reflexivity] | apply (Sm f); [apply U | reflexivity]].
  - destruct (frcti_is_window_open (fr x) now) as [[f b] ps] eqn:E. injection Es as <- <-.
    destruct (window_open_core _ _ _ _ _ E) as (_ & U & _). apply (Sm f); [exact U | reflexivity].
  - injection Es as <- <-. destruct (before_wait_core (fr x) now) as (_ & U & _).
    apply (Sm (window_before_wait (fr x) now)); [exact U | reflexivity].
  - destruct (window_timeout (fr x) now) as [[f b] ps] eqn:E. injection Es as <- <-.
    destruct (window_timeout_core _ _ _ _ _ E) as (_ & U & _). apply (Sm f); [exact U | reflexivity].
Qed.

(* What an end of a flow has accepted, over any history of events at that
   end (the packets that arrive can be anything): a packet is accepted when
   it is put in the queue. *)
Definition accepted_by (f : frcti) (now : Z) (e : event) : list data :=
  match e with
  | Recv fl => match frcti_rcv f now (f_hdr fl) (f_body fl) with
               | (_, Queued, _) => [f_body fl]
               | _ => []
               end
  | _ => []
  end.

Inductive end_history (x0 : ep) : list data -> ep -> Prop :=
| eh_start : end_history x0 [] x0
| eh_step : forall acc x now e x' out, end_history x0 acc x ->
    ep_step x now e = Ok (x', out) ->
    end_history x0 (acc ++ accepted_by (fr x) now e) x'.

Definition queued (f : frcti) : list data :=
  flat_map (fun o => match o with Some d => [d] | None => [] end) (rq f).

Lemma queued_set : forall (q : list (option data)) n d, (n < length q)%nat -> rq_get q n = None ->
  Permutation (d :: flat_map (fun o => match o with Some d => [d] | None => [] end) q)
    (flat_map (fun o => match o with Some d => [d] | None => [] end) (rq_set q n (Some d))).
Proof.
  induction q as [|o q IH]; intros n d L G; [cbn in L; lia|].
  destruct n as [|n]; cbn in *.
  - unfold rq_get in G. cbn in G. subst o. apply Permutation_refl.
  - rewrite <- IH by (try lia; exact G). apply Permutation_middle.
Qed.

Lemma queued_clear : forall (q : list (option data)) n d, rq_get q n = Some d ->
  Permutation (flat_map (fun o => match o with Some d => [d] | None => [] end) q)
    (d :: flat_map (fun o => match o with Some d => [d] | None => [] end) (rq_set q n None)).
Proof.
  induction q as [|o q IH]; intros n d G; [destruct n; discriminate|].
  destruct n as [|n]; cbn in *.
  - unfold rq_get in G. cbn in G. subst o. apply Permutation_refl.
  - rewrite (IH n d G). symmetry. apply Permutation_middle.
Qed.

Lemma rcv_data_queued : forall f now p d f' t ps, rcv_data f now p d = (f', t, ps) ->
  f_rtx (rcv_cr f) = true ->
  (t = Queued /\ before (p_seqno p) (lwe (rcv_cr f)) = false /\
   before (p_seqno p) (rwe (rcv_cr f)) = true /\
   before (p_seqno p) (w32 (lwe (rcv_cr f) + RQ_SIZE)) = true /\
   rq_get (rq f) (slot (p_seqno p)) = None /\
   rq f' = rq_set (rq f) (slot (p_seqno p)) (Some d) /\ f_rtx (rcv_cr f') = true) \/
  (t <> Queued /\ rq f' = rq f /\ f_rtx (rcv_cr f') = true /\
   lwe (rcv_cr f') = lwe (rcv_cr f) /\ rwe (rcv_cr f') = rwe (rcv_cr f) /\
   (p_data p = false \/ before (p_seqno p) (lwe (rcv_cr f)) = true \/
    before (p_seqno p) (rwe (rcv_cr f)) = false \/
    before (p_seqno p) (w32 (lwe (rcv_cr f) + RQ_SIZE)) = false \/
    rq_get (rq f) (slot (p_seqno p)) <> None)).
Proof.
  intros f now p d f' t ps E Hr.
  assert (Dr : forall g, drop g now = (f', t, ps) -> rq g = rq f -> f_rtx (rcv_cr g) = true ->
             lwe (rcv_cr g) = lwe (rcv_cr f) -> rwe (rcv_cr g) = rwe (rcv_cr f) ->
             t <> Queued /\ rq f' = rq f /\ f_rtx (rcv_cr f') = true /\
             lwe (rcv_cr f') = lwe (rcv_cr f) /\ rwe (rcv_cr f') = rwe (rcv_cr f)).
  { intros g D X1 X2 X3 X4. unfold drop, send_frct_pkt in D.
    destruct (negb (after (lwe (rcv_cr g)) (seqno (rcv_cr g))));
      [injection D as <- <- <-; repeat split; auto; discriminate|].
    destruct (now - act (rcv_cr g) >? a g); [injection D as <- <- <-; repeat split; auto; discriminate|].
    destruct (now - act (snd_cr g) <? TICTIME);
      injection D as <- <- <-; repeat split; auto; discriminate. }
  unfold rcv_data in E.
  destruct (p_data p) eqn:Pd; cbn [negb] in E.
  2:{ right. destruct (Dr f E) as (D1 & D2 & D3 & D4 & D5); auto 10. }
  destruct (before (p_seqno p) (lwe (rcv_cr f))) eqn:B1.
  { right. destruct (Dr _ E) as (D1 & D2 & D3 & D4 & D5); auto 10. }
  rewrite Hr in E.
  destruct (before (p_seqno p) (rwe (rcv_cr f))) eqn:B2; cbn [negb] in E.
  2:{ right. destruct (Dr f E) as (D1 & D2 & D3 & D4 & D5); auto 10. }
  destruct (before (p_seqno p) (w32 (lwe (rcv_cr f) + RQ_SIZE))) eqn:B3; cbn [negb] in E.
  2:{ right. destruct (Dr f E) as (D1 & D2 & D3 & D4 & D5); auto 10. }
  destruct (rq_get (rq f) (slot (p_seqno p))) as [o|] eqn:G.
  { right. destruct (Dr f E) as (D1 & D2 & D3 & D4 & D5); auto. repeat (split; [assumption|]).
    right; right; right; right. discriminate. }
  left. injection E as <- <- <-. repeat split; auto.
Qed.

(* The state in which the data of a packet is looked at. *)
Definition prepared (f : frcti) (now : Z) (p : pci) : frcti :=
  rcv_fc (rcv_ack (with_rcv f (cr_act (rcv_cr f) now)) now p) p.

Lemma prepared_rcv : forall f now p,
  rcv_cr (prepared f now p) = cr_act (rcv_cr f) now /\ rq (prepared f now p) = rq f.
Proof.
  intros. unfold prepared, rcv_fc, rcv_ack, rtt_estimator.
  destruct (p_ack p), (p_fc p); cbn;
  repeat match goal with
  | |- context [if ?b then _ else _] => destruct b; cbn
  | |- context [let '(_, _) := if ?b then _ else _ in _] => destruct b; cbn
  end; auto.
Qed.

Lemma rcv_queued : forall f now p d f' t ps, frcti_rcv f now p d = (f', t, ps) ->
  f_rtx (rcv_cr f) = true ->
  (t = Queued /\ rq_get (rq f) (slot (p_seqno p)) = None /\
   rq f' = rq_set (rq f) (slot (p_seqno p)) (Some d)) \/
  (t <> Queued /\ rq f' = rq f).
Proof.
  intros f now p d f' t ps E Hr.
  assert (R : forall g, f_rtx (rcv_cr g) = true -> rq g = rq f -> rcv_active g now p d = (f', t, ps) ->
    (t = Queued /\ rq_get (rq f) (slot (p_seqno p)) = None /\
     rq f' = rq_set (rq f) (slot (p_seqno p)) (Some d)) \/ (t <> Queued /\ rq f' = rq f)).
  { intros g Hg Hq R. unfold rcv_active in R. cbv zeta in R. destruct (p_rdvs p).
    - injection R as <- <- <-. right. split; [discriminate | exact Hq].
    - fold (prepared g now p) in R. destruct (prepared_rcv g now p) as [P1 P2].
      destruct (rcv_data_queued _ _ _ _ _ _ _ R) as [(Q1 & _ & _ & _ & Q2 & Q3 & _) | (Q1 & Q2 & _)].
      + rewrite P1. exact Hg.
      + left. rewrite P2, Hq in Q2, Q3. auto.
      + right. rewrite P2, Hq in Q2. auto. }
  unfold frcti_rcv in E. destruct (rcv_inactive f now).
  - destruct (p_drf p); [eapply R; [| |exact E]; [exact Hr | reflexivity]|].
    destruct (p_data p); [|eapply R; [| |exact E]; [exact Hr | reflexivity]].
    right. destruct (drop_core _ _ _ _ _ E) as (-> & _ & C & _). injection C as _ _ _ _ C.
    split; [discriminate | exact C].
  - eapply R; [| |exact E]; [exact Hr | reflexivity].
Qed.

(* Over any history of a new reliable flow: what was accepted is what was
   read and what is in the queue, each packet once; the queue never holds
   more than RQ_SIZE packets. *)
Theorem frct_queue_conserves : forall a r mpl t0 acc x,
  end_history (Ep (frcti_create a r mpl true t0) [] [] []) acc x ->
  Permutation acc (got x ++ queued (fr x)) /\ (length (queued (fr x)) <= 256)%nat.
Proof.
  intros a r mpl t0 acc x H.
  assert (I : f_rtx (rcv_cr (fr x)) = true /\ length (rq (fr x)) = 256%nat /\
              Permutation acc (got x ++ queued (fr x))).
  { induction H as [|acc x now e x' out H (I1 & I2 & I3) E].
    - split; [reflexivity|]. split; [reflexivity|]. vm_compute. constructor.
    - destruct (frct_queue_kept x now e x' out I1 E) as (K1 & K2 & K3 & K4).
      split; [exact K1|]. split; [congruence|].
      assert (Same : fr x' = fr x' -> rq (fr x') = rq (fr x) -> got x' = got x ->
                     accepted_by (fr x) now e = [] ->
                     Permutation (acc ++ accepted_by (fr x) now e) (got x' ++ queued (fr x'))).
      { intros _ X1 X2 X3. unfold queued. rewrite X1, X2, X3, app_nil_r. exact I3. }
      destruct e as [d rnd | | fl | | n full wr | | | ]; cbn [ep_step] in E.
      + destruct (frcti_snd (fr x) now rnd) as [[f h]|] eqn:F; [|discriminate].
        injection E as <- <-. apply Same; try reflexivity. cbn [fr].
        unfold frcti_snd in F. destruct (snd_inactive (fr x) now && _); [discriminate|].
        cbv zeta in F. injection F as <- _. cbn.
        destruct (f_rtx (snd_cr (fr x)) && negb (probe (fr x))); reflexivity.
      + destruct (frcti_queued_pdu (fr x)) as [f o] eqn:F.
        destruct (queued_pdu_core _ _ _ F) as (_ & _ & U3). destruct o as [d|].
        * injection E as <- <-. destruct U3 as [U3 U4]. injection U4 as _ _ _ _ U5.
          cbn [accepted_by]. rewrite app_nil_r. cbn [got fr].
          rewrite I3. unfold queued. rewrite U5, <- app_assoc. apply Permutation_app_head.
          cbn. apply queued_clear. exact U3.
        * injection E as <- <-. destruct U3 as [_ ->]. apply Same; reflexivity.
      + destruct (frcti_rcv (fr x) now (f_hdr fl) (f_body fl)) as [[f t] ps] eqn:F.
        injection E as <- <-.
        destruct (rcv_queued _ _ _ _ _ _ _ F I1) as [(-> & Q1 & Q2) | (Q1 & Q2)].
        * cbn [accepted_by got fr]. rewrite F. unfold queued. rewrite Q2.
          rewrite <- queued_set; [| rewrite I2; apply slot_lt | exact Q1].
          rewrite I3. rewrite <- app_assoc. apply Permutation_app_head.
          apply Permutation_sym, Permutation_cons_append.
        * apply Same; try reflexivity; [exact Q2|]. cbn [accepted_by]. rewrite F. destruct t; congruence.
      + destruct (send_frct_pkt (fr x) now) as [f ps] eqn:F. injection E as <- <-.
        destruct (send_frct_pkt_core _ _ _ _ F) as (_ & U & _). injection U as _ _ _ _ U.
        apply Same; try reflexivity; exact U.
      + destruct (nth_error (rxms x) n) as [e|] eqn:En.
        2:{ injection E as <- <-. apply Same; reflexivity. }
        pose proof (rxm_fire_core (fr x) now e full wr) as U.
        destruct (rxm_fire (fr x) now e full wr) as [ | | f | f p] eqn:F; injection E as <- <-;
          apply Same; try reflexivity; destruct U as (_ & U & _); injection U as _ _ _ _ U; exact U.
      + destruct (frcti_is_window_open (fr x) now) as [[f b] ps] eqn:F. injection E as <- <-.
        destruct (window_open_core _ _ _ _ _ F) as (_ & U & _). injection U as _ _ _ _ U.
        apply Same; try reflexivity; exact U.
      + injection E as <- <-. destruct (before_wait_core (fr x) now) as (_ & U & _).
        injection U as _ _ _ _ U. apply Same; try reflexivity; exact U.
      + destruct (window_timeout (fr x) now) as [[f b] ps] eqn:F. injection E as <- <-.
        destruct (window_timeout_core _ _ _ _ _ F) as (_ & U & _). injection U as _ _ _ _ U.
        apply Same; try reflexivity; exact U. }
  destruct I as (_ & I2 & I3). split; [exact I3|]. unfold queued.
  assert (G : forall q : list (option data),
    (length (flat_map (fun o => match o with Some d => [d] | None => [] end) q) <= length q)%nat).
  { induction q as [|[d|] q IH]; cbn; lia. }
  specialize (G (rq (fr x))). lia.
Qed.

(* What is put in the queue, in terms of the positions of the packets in
   the stream: when the receiver expects packet L and packet i arrives, it
   is accepted exactly if it is one of the RQ_SIZE packets from L on, below
   the edge it advertised, and its place is free; otherwise nothing in the
   window or the queue changes. *)
Theorem frct_window_exact : forall f now p d f' t out L E i,
  f_rtx (rcv_cr f) = true -> rcv_inactive f now = false ->
  p_data p = true -> p_rdvs p = false ->
  lwe (rcv_cr f) = w32 L -> rwe (rcv_cr f) = w32 E -> p_seqno p = w32 i ->
  Z.abs (i - L) < 2 ^ 31 - RQ_SIZE -> Z.abs (i - E) < 2 ^ 31 ->
  frcti_rcv f now p d = (f', t, out) ->
  (t = Queued <-> L <= i < L + RQ_SIZE /\ i < E /\ rq_get (rq f) (slot i) = None) /\
  (t = Queued -> rq f' = rq_set (rq f) (slot i) (Some d)) /\
  (t <> Queued -> rq f' = rq f) /\
  lwe (rcv_cr f') = w32 L /\ rwe (rcv_cr f') = w32 E.
Proof.
  intros f now p d f' t out L E i Hr Hi Pd Pr Hl He Hs D1 D2 F.
  unfold frcti_rcv in F. rewrite Hi in F. unfold rcv_active in F. cbv zeta in F. rewrite Pr in F.
  fold (prepared f now p) in F. destruct (prepared_rcv f now p) as [P1 P2].
  assert (B : before (p_seqno p) (lwe (rcv_cr f)) = (i <? L)).
  { rewrite Hs, Hl. apply before_w32. unfold RQ_SIZE in *. lia. }
  assert (B2 : before (p_seqno p) (rwe (rcv_cr f)) = (i <? E)).
  { rewrite Hs, He. apply before_w32. lia. }
  assert (B3 : before (p_seqno p) (w32 (lwe (rcv_cr f) + RQ_SIZE)) = (i <? L + RQ_SIZE)).
  { rewrite Hs, Hl, w32_add. apply before_w32. unfold RQ_SIZE in *. lia. }
  assert (Sl : slot (p_seqno p) = slot i) by (rewrite Hs; apply slot_w32).
  pose proof F as F0.
  destruct (rcv_data_queued _ _ _ _ _ _ _ F) as [(Q1 & Q2 & Q3 & Q4 & Q5 & Q6 & _) | (Q1 & Q2 & _ & Q3 & Q4 & Q5)].
  - rewrite P1. exact Hr.
  - rewrite P1 in Q2, Q3, Q4. rewrite P2 in Q5, Q6. cbn in Q2, Q3, Q4.
    rewrite B in Q2. rewrite B2 in Q3. rewrite B3 in Q4. rewrite Sl in Q5, Q6.
    subst t. split; [split; [intros _; split; [lia|]; split; [lia | exact Q5] | reflexivity]|].
    split; [intros _; exact Q6|]. split; [intros X; congruence|].
    unfold rcv_data in F0. rewrite Pd, P1 in F0. cbn [negb lwe rwe f_rtx cr_act] in F0.
    rewrite B, B2, B3, Hr, P2, Sl, Q5 in F0.
    replace (i <? L) with false in F0 by lia. replace (i <? E) with true in F0 by lia.
    replace (i <? L + RQ_SIZE) with true in F0 by lia. cbn [negb] in F0.
    injection F0 as <- _. cbn. rewrite P1. cbn. auto.
  - rewrite P1 in Q3, Q4, Q5. rewrite P2 in Q2, Q5. cbn in Q3, Q4, Q5.
    rewrite B, B2, B3, Sl, Pd in Q5.
    split; [split; [intros X; congruence|]; intros (X1 & X2 & X3)|].
    + exfalso. destruct Q5 as [X | [X | [X | [X | X]]]]; [discriminate | lia | lia | lia | congruence].
    + split; [intros X; congruence|]. split; [intros _; exact Q2|]. rewrite Q3, Q4. auto.
Qed.

(* ==== C17 ==== *)

(* The peer advertises the edge [adv] by its 24 lower bits
   (__send_frct_pkt, __frcti_snd).  The sender gets it back exactly if it is
   no less than the edge it knew, and ahead of it by no more than 2^23. *)
Lemma decode_exact : forall E adv, E <= adv <= E + 2 ^ 23 ->
  decode_rwe (w32 E) (w32 adv mod 2 ^ 24) = w32 adv.
Proof.
  intros E adv H.
  set (c := w32 E). assert (Hc : 0 <= c < 2 ^ 32) by (apply Z.mod_pos_bound; reflexivity).
  set (k := adv - E). assert (Hk : 0 <= k <= 2 ^ 23) by lia.
  assert (Ha : w32 adv = w32 (c + k)).
  { unfold c. rewrite w32_add. f_equal. lia. }
  rewrite Ha. clearbody c k. clear H Ha adv E.
  assert (Hm : w32 (c + k) mod 2 ^ 24 = (c + k) mod 2 ^ 24).
  { unfold w32, two32. change (2 ^ 32) with (2 ^ 24 * 2 ^ 8).
    rewrite Z.rem_mul_r by (try discriminate; reflexivity).
    rewrite Z.mul_comm, Z.mod_add by discriminate. apply Z.mod_mod. discriminate. }
  rewrite Hm.
  change (2 ^ 24) with 16777216 in *. change (2 ^ 23) with 8388608 in *.
  change (2 ^ 32) with 4294967296 in *.
  set (b := c / 16777216). assert (Hb : c = b * 16777216 + c mod 16777216)
    by (unfold b; rewrite Z.mul_comm; apply Z.div_mod; discriminate).
  assert (Ho : 0 <= c mod 16777216 < 16777216) by (apply Z.mod_pos_bound; reflexivity).
  assert (Bb : 0 <= b < 256) by lia.
  destruct (Z_lt_dec (c mod 16777216 + k) 16777216) as [L | L].
  - (* the same block *)
    assert (Hw : (c + k) mod 16777216 = c mod 16777216 + k).
    { symmetry. apply (Z.mod_unique _ _ b); lia. }
    assert (Hr : (c + k) mod 16777216 + b * 16777216 = c + k) by lia.
    unfold decode_rwe. change (2 ^ 24) with 16777216. fold b. rewrite Hr.
    assert (Hs : c + k < 4294967296) by lia.
    assert (Hw32 : w32 (c + k) = c + k).
    { unfold w32, two32. apply Z.mod_small. change (2 ^ 32) with 4294967296. lia. }
    assert (Bf : before (c + k) c = false).
    { rewrite <- Hw32. replace c with (w32 c) at 2.
      2:{ unfold w32, two32. apply Z.mod_small. change (2 ^ 32) with 4294967296. lia. }
      rewrite before_w32; [lia|]. change (2 ^ 31) with 2147483648. lia. }
    rewrite Bf. cbn [andb]. symmetry. exact Hw32.
  - (* the next one *)
    assert (Hw : (c + k) mod 16777216 = c mod 16777216 + k - 16777216).
    { symmetry. apply (Z.mod_unique _ _ (b + 1)); lia. }
    assert (Hr : (c + k) mod 16777216 + b * 16777216 = c + k - 16777216) by lia.
    unfold decode_rwe. change (2 ^ 24) with 16777216. fold b. rewrite Hr.
    assert (Hl : w32 (c + k - 16777216) = c + k - 16777216).
    { unfold w32, two32. apply Z.mod_small. change (2 ^ 32) with 4294967296. lia. }
    assert (Bf : before (c + k - 16777216) c = true).
    { rewrite <- Hl. replace c with (w32 c) at 2.
      2:{ unfold w32, two32. apply Z.mod_small. change (2 ^ 32) with 4294967296. lia. }
      rewrite before_w32; [lia|]. change (2 ^ 31) with 2147483648. lia. }
    assert (Gt : w32 (c - (c + k - 16777216)) >? 8388607 = true).
    { replace (c - (c + k - 16777216)) with (16777216 - k) by lia.
      unfold w32, two32. rewrite Z.mod_small; [lia|]. change (2 ^ 32) with 4294967296. lia. }
    rewrite Bf, Gt. cbn [andb]. f_equal. lia.
Qed.

(* The life of a sender between two runs: it learns edges and it writes,
   blocking or not, only as the window allows.  n is the number of the next
   packet in the stream, E the last edge that was advertised, both counted
   without wrapping around. *)
Inductive sender : frcti -> Z -> Z -> list (Z * Z) -> Prop :=
| snd_start : forall f n E, seqno (snd_cr f) = w32 n -> rwe (snd_cr f) = w32 E ->
    f_rescntl (snd_cr f) = true -> n <= E <= n + 2 ^ 23 -> sender f n E []
| snd_fc : forall f n E sent p adv, sender f n E sent ->
    p_fc p = true -> p_window p = w32 adv mod 2 ^ 24 ->
    E <= adv < n + 2 ^ 23 ->
    sender (rcv_fc f p) n adv sent
| snd_write : forall f n E sent now rnd f' h, sender f n E sent ->
    snd_inactive f now = false ->
    (snd (fst (frcti_is_window_open f now)) = true \/ window_closed f = false) ->
    frcti_snd f now rnd = Ok (f', h) ->
    sender f' (n + 1) E (sent ++ [(p_seqno h, E)]).

(* C17, the part that holds: if the edges arrive in the order in which they
   were advertised, each less than 2^23 ahead of the sender, the sender's
   edge is always the one last advertised, and the k-th packet has number
   n0 + k, below the edge known when it was sent. *)
Theorem frct_window_decoded_partial : forall f n E sent, sender f n E sent ->
  rwe (snd_cr f) = w32 E /\ seqno (snd_cr f) = w32 n /\ n <= E /\
  forall k s e, nth_error sent k = Some (s, e) ->
    s = w32 (n - zlen sent + Z.of_nat k) /\ n - zlen sent + Z.of_nat k < e <= E.
Proof.
  intros f n E sent H.
  assert (I : rwe (snd_cr f) = w32 E /\ seqno (snd_cr f) = w32 n /\ f_rescntl (snd_cr f) = true /\
    n <= E <= n + 2 ^ 23 /\
    forall k s e, nth_error sent k = Some (s, e) ->
      s = w32 (n - zlen sent + Z.of_nat k) /\ n - zlen sent + Z.of_nat k < e <= E).
  { induction H as [f n E H1 H2 H3 H4 | f n E sent p adv H (I1 & I2 & I3 & I4 & I5) Pf Pw Ha
                   | f n E sent now rnd f' h H (I1 & I2 & I3 & I4 & I5) Ia Po F].
    - do 4 (split; [assumption|]). intros k s e X. destruct k; discriminate.
    - assert (D : rwe (snd_cr (rcv_fc f p)) = w32 adv /\
                  seqno (snd_cr (rcv_fc f p)) = seqno (snd_cr f) /\
                  f_rescntl (snd_cr (rcv_fc f p)) = f_rescntl (snd_cr f)).
      { assert (X : decode_rwe (rwe (snd_cr f)) (p_window p) = w32 adv)
          by (rewrite I1, Pw; apply decode_exact; lia).
        unfold rcv_fc. rewrite Pf, X. cbn. destruct (open f); cbn; auto. }
      destruct D as (-> & -> & ->). do 3 (split; [auto|]). split; [lia|].
      intros k s e X. destruct (I5 k s e X). split; [assumption | lia].
    - assert (Lt : n < E).
      { destruct Po as [Po | Po].
        - unfold frcti_is_window_open in Po. rewrite I3 in Po. cbn [negb orb] in Po.
          destruct (before (seqno (snd_cr f)) (rwe (snd_cr f))) eqn:Bf.
          + rewrite I1, I2 in Bf. rewrite before_w32 in Bf; [lia|].
            change (2 ^ 31) with (256 * 2 ^ 23). lia.
          + destruct (open f); [discriminate Po|].
            destruct (now - t_wnd f >? MAX_RDV); [discriminate Po|].
            destruct (now - t_rdvs f >? DELT_RDV); discriminate Po.
        - unfold window_closed in Po. rewrite I3, I1, I2 in Po. cbn [andb] in Po.
          destruct (Z.eq_dec n E) as [->|X]; [|lia]. rewrite Z.eqb_refl in Po. discriminate. }
      unfold frcti_snd in F. rewrite Ia in F. cbn [andb] in F. cbv zeta in F.
      injection F as <- <-. cbn [snd_cr with_rcv with_snd cr_act cr_wnd rwe seqno f_rescntl p_seqno].
      rewrite I1, I2. split; [reflexivity|]. split; [apply w32_add|]. split; [exact I3|].
      split; [lia|]. intros k s e X. rewrite zlen_app. change (zlen [(w32 n, E)]) with 1.
      destruct (lt_dec k (length sent)) as [L|L].
      + rewrite nth_error_app1 in X by exact L. destruct (I5 k s e X) as [Y1 Y2].
        replace (n + 1 - (zlen sent + 1) + Z.of_nat k) with (n - zlen sent + Z.of_nat k) by lia. auto.
      + rewrite nth_error_app2 in X by lia.
        destruct (k - length sent)%nat as [|j] eqn:Ek; [|destruct j; discriminate].
        cbn in X. injection X as <- <-. unfold zlen.
        replace (n + 1 - (Z.of_nat (length sent) + 1) + Z.of_nat k) with n by lia.
        split; [reflexivity | lia]. }
  destruct I as (I1 & I2 & _ & I4 & I5). split; [exact I1|]. split; [exact I2|]. split; [lia | exact I5].
Qed.

Definition ts (s : Z) : Z := s * BILLION.
Definition start17 : flow := flow_init 10 120 60 true (ts 1000) (ts 1000).

(* A writes its first packet, with a number just below a multiple of 2^24;
   B answers before and after reading it, and the answers arrive in the
   wrong order. *)
Definition script17 : list (side * Z * cmd) :=
  (A, ts 1000, CWrite [0]%N (2 ^ 24 - 257)) :: (B, ts 1001, CRecv 0) ::
  (B, ts 1001, CWrite [7]%N 5) :: (B, ts 1001, CRead) :: (B, ts 1002, CAck) ::
  (A, ts 1003, CRecv 1) :: (A, ts 1004, CRecv 0) ::
  repeat (A, ts 1005, CWrite [1]%N 0) 260.

Definition ok17 (s : flow) (ac : action) : bool := half_space_b s ac && polite_b s ac.

Definition end17 : flow := match run ok17 script17 start17 with Some s => s | None => start17 end.

(* C17 in full: in no history does a sender that respects its window send a
   packet at or beyond the right edge of its peer's window.  It is false:
   a flow-control packet that is overtaken by another one, at a multiple of
   2^24, makes the sender take the edge 2^24 too far. *)
Theorem frct_window_decoded_refuted :
  ~ (forall mpl a r ta tb s, 0 <= mpl -> 0 <= a -> 0 <= r ->
      history (fun s ac => possible s ac /\ half_space s ac /\ polite s ac)
        (flow_init a r mpl true ta tb) s ->
      zlen (got (eb s)) > 0 ->
      forall fl, In fl (nab s) -> p_data (f_hdr fl) = true ->
      before (p_seqno (f_hdr fl)) (rwe (rcv_cr (fr (eb s)))) = true).
Proof.
  intros H.
  assert (Hy : history (fun s ac => possible s ac /\ half_space s ac /\ polite s ac) start17 end17).
  { apply (run_history ok17 (fun s ac => half_space s ac /\ polite s ac) start17)
      with (l := script17) (s := start17).
    - intros s ac X. apply andb_true_iff in X. destruct X.
      split; [apply half_space_ok | apply polite_ok]; assumption.
    - apply h_start.
    - vm_compute. reflexivity. }
  assert (G : zlen (got (eb end17)) > 0) by (vm_compute; reflexivity).
  specialize (H 60 10 120 (ts 1000) (ts 1000) end17 ltac:(lia) ltac:(lia) ltac:(lia) Hy G).
  assert (X : forallb (fun fl => negb (p_data (f_hdr fl)) ||
                before (p_seqno (f_hdr fl)) (rwe (rcv_cr (fr (eb end17))))) (nab end17) = false)
    by (vm_compute; reflexivity).
  assert (Y : forallb (fun fl => negb (p_data (f_hdr fl)) ||
                before (p_seqno (f_hdr fl)) (rwe (rcv_cr (fr (eb end17))))) (nab end17) = true).
  { apply forallb_forall. intros fl Hf. destruct (p_data (f_hdr fl)) eqn:D; [|reflexivity].
    cbn [negb orb]. apply H; assumption. }
  congruence.
Qed.

(* ==== C18 ==== *)

(* The smoothed round-trip time, its deviation and the time-out after one
   measurement of m nanoseconds. *)
Theorem frct_rtt_bounds : forall f m,
  0 <= m -> (srtt f = 0 \/ 1000 <= srtt f) -> 100 <= mdev f ->
  let f' := rtt_estimator f m in
  1000 <= srtt f' /\ 100 <= mdev f' /\
  RTO_MIN <= rto f' /\ srtt f' + 4 * mdev f' <= rto f' <= Z.max RTO_MIN (srtt f' + 4 * mdev f') /\
  (* the first measurement is taken as it is *)
  (srtt f = 0 -> srtt f' = Z.max 1000 m /\ mdev f' = Z.max 100 (m / 2)) /\
  (* later ones move the average by an eighth of the difference *)
  (srtt f <> 0 -> srtt f' = Z.max 1000 ((7 * srtt f + m) / 8)) /\
  (* and the deviation by a fourth of the difference up, a 32nd down *)
  (srtt f <> 0 -> Z.abs (m - srtt f) >= mdev f ->
     mdev f' = Z.max 100 ((3 * mdev f + Z.abs (m - srtt f)) / 4)) /\
  (srtt f <> 0 -> Z.abs (m - srtt f) < mdev f ->
     mdev f' = Z.max 100 (mdev f + (Z.abs (m - srtt f) - mdev f) / 4 / 8)).
Proof.
  intros f m Hm Hs Hd f'. unfold f', rtt_estimator.
  destruct (srtt f =? 0) eqn:E0.
  - cbn [srtt mdev rto with_rtt]. rewrite ?Z.shiftr_div_pow2, ?Z.shiftl_mul_pow2 by (unfold MDEV_MUL; lia).
    change (2 ^ MDEV_MUL) with 4. change (2 ^ 1) with 2.
    do 3 (split; [lia|]). split; [lia|]. split; [intros _; split; reflexivity|].
    split; [lia|]. split; lia.
  - cbn [srtt mdev rto with_rtt]. rewrite ?Z.shiftr_div_pow2, ?Z.shiftl_mul_pow2 by (unfold MDEV_MUL; lia).
    change (2 ^ MDEV_MUL) with 4. change (2 ^ 2) with 4.
    change (2 ^ 3) with 8.
    assert (X1 : srtt f + (m - srtt f) / 8 = (7 * srtt f + m) / 8).
    { rewrite <- Z.div_add_l by lia. f_equal. lia. }
    assert (X2 : mdev f + (Z.abs (m - srtt f) - mdev f) / 4 = (3 * mdev f + Z.abs (m - srtt f)) / 4).
    { rewrite <- Z.div_add_l by lia. f_equal. lia. }
    do 3 (split; [lia|]). split; [lia|]. split; [lia|].
    split; [intros _; rewrite X1; reflexivity|].
    split; intros _ Y.
    + assert (Z0 : 0 <= (Z.abs (m - srtt f) - mdev f) / 4) by (apply Z.div_pos; lia).
      replace ((Z.abs (m - srtt f) - mdev f) / 4 <? 0) with false by lia. rewrite X2. reflexivity.
    + assert (Z0 : (Z.abs (m - srtt f) - mdev f) / 4 < 0)
        by (apply Z.div_lt_upper_bound; lia).
      replace ((Z.abs (m - srtt f) - mdev f) / 4 <? 0) with true by lia. reflexivity.
Qed.

(* After any sequence of measurements and retransmission back-offs of a new
   flow (a back-off doubles the time-out): the estimates stay positive, the
   time-out stays at or above RTO_MIN; and if no measurement exceeds M, the
   averages do not either. *)
Inductive sample : Type := Measured (m : Z) | Backoff.

Definition sampled (f : frcti) (x : sample) : frcti :=
  match x with
  | Measured m => rtt_estimator f m
  | Backoff => with_rtt f (srtt f) (mdev f) (rto f + rto f)
  end.

Theorem frct_rto_never_below : forall a r mpl b t0 M l,
  10 * MILLION <= M ->
  Forall (fun x => match x with Measured m => 0 <= m <= M | Backoff => True end) l ->
  let f := fold_left sampled l (frcti_create a r mpl b t0) in
  RTO_MIN <= rto f /\ 100 <= mdev f <= M /\ (srtt f = 0 \/ 1000 <= srtt f <= M).
Proof.
  intros a r mpl b t0 M l HM.
  assert (G : forall l f, Forall (fun x => match x with Measured m => 0 <= m <= M | Backoff => True end) l ->
    RTO_MIN <= rto f /\ 100 <= mdev f <= M /\ (srtt f = 0 \/ 1000 <= srtt f <= M) ->
    let f' := fold_left sampled l f in
    RTO_MIN <= rto f' /\ 100 <= mdev f' <= M /\ (srtt f' = 0 \/ 1000 <= srtt f' <= M)).
  { clear l. induction l as [|x l IH]; intros f F I; [exact I|].
    cbn [fold_left]. inversion F as [|? ? Fx Fl]; subst. apply IH; [exact Fl|].
    destruct I as (I1 & I2 & I3). unfold MILLION in HM.
    destruct x as [m|]; cbn [sampled].
    - assert (I3' : srtt f = 0 \/ 1000 <= srtt f) by (destruct I3; [left; assumption | right; lia]).
      destruct (frct_rtt_bounds f m (proj1 Fx) I3' (proj1 I2)) as (B1 & B2 & B3 & B4 & B5 & B6 & B7 & B8).
      split; [exact B3|]. revert B5 B6 B7 B8. generalize (rtt_estimator f m). intros f' B5 B6 B7 B8.
      clear B1 B2 B3 B4.
      destruct (Z.eq_dec (srtt f) 0) as [E0|E0].
      + clear B6 B7 B8. destruct (B5 E0) as [-> ->]. clear B5.
        assert (m / 2 <= m) by (apply Z.div_le_upper_bound; lia). lia.
      + clear B5. rewrite (B6 E0). clear B6.
        assert (Hs : 1000 <= srtt f <= M) by (destruct I3; [contradiction | assumption]).
        assert ((7 * srtt f + m) / 8 <= M) by (apply Z.div_le_upper_bound; lia).
        assert (Hd : 100 <= mdev f' <= M); [|lia].
        destruct (Z_lt_dec (Z.abs (m - srtt f)) (mdev f)) as [L|L].
        * rewrite (B8 E0 L). clear B7 B8.
          assert ((Z.abs (m - srtt f) - mdev f) / 4 / 8 <= 0).
          { apply Z.div_le_upper_bound; [lia|]. apply Z.div_le_upper_bound; lia. }
          lia.
        * rewrite (B7 E0 ltac:(lia)). clear B7 B8.
          assert ((3 * mdev f + Z.abs (m - srtt f)) / 4 <= M) by (apply Z.div_le_upper_bound; lia). lia.
    - cbn. unfold RTO_MIN in *. lia. }
  intros F. apply G; [exact F|]. cbn. unfold RTO_MIN, MILLION, BILLION in *. lia.
Qed.

Print Assumptions frct_queue_kept.
Print Assumptions frct_queue_conserves.
Print Assumptions frct_window_exact.
Print Assumptions frct_window_decoded_partial.
Print Assumptions frct_window_decoded_refuted.
Print Assumptions frct_rtt_bounds.
Print Assumptions frct_rto_never_below.
