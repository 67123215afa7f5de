(** Properties of the broadcast IPCP. *)
From Coq Require Import ZArith List Bool Arith Lia FinFun.
From Verif Require Import BcastModel BcastSpec.
Import ListNotations.

(** * One node *)

Lemma mem_in : forall f l, mem f l = true <-> In f l.
Proof.
  intros. unfold mem. rewrite existsb_exists. split.
  - intros (x & X & E). apply Nat.eqb_eq in E. subst. exact X.
  - intros H. exists f. split; [exact H|apply Nat.eqb_refl].
Qed.

Lemma run_cons : forall e h, run (e :: h) = fst (step (run h) e).
Proof. reflexivity. Qed.

Lemma read_nbs : forall s f q, nbs (fst (read_flood s f q)) = nbs s.
Proof.
  intros. unfold read_flood. destruct (flow_read (ring s f) (prt s f)) as [[[p r] pt]|]; reflexivity.
Qed.

Lemma nbs_spec : forall h, NoDup (nbs (run h)) /\ forall f, In f (nbs (run h)) <-> neighbour f h = true.
Proof.
  induction h as [|e h (N & I)]; [split; [constructor|cbn; split; [tauto|discriminate]]|].
  rewrite run_cons. destruct e as [g|g|g p|]; cbn [step fst].
  - cbn [neighbour]. destruct (mem g (nbs (run h))) eqn:M.
    + split; [exact N|]. intros f. rewrite I. apply mem_in in M. apply I in M.
      destruct (Nat.eqb_spec g f) as [E|E]; [subst; cbn; tauto|cbn; tauto].
    + cbn [nbs]. split.
      * assert (X : ~ In g (nbs (run h))) by (intros Q; apply mem_in in Q; congruence).
        clear - N X. induction (nbs (run h)) as [|a l IH]; cbn; [constructor; [tauto|constructor]|].
        inversion N; subst. constructor.
        -- rewrite in_app_iff. cbn in *. intros [Q|[Q|[]]]; [contradiction|subst; tauto].
        -- apply IH; [assumption|cbn in X; tauto].
      * intros f. rewrite in_app_iff, I, orb_true_iff, Nat.eqb_eq. cbn. tauto.
  - cbn [nbs neighbour]. split; [apply NoDup_filter; exact N|]. intros f.
    rewrite filter_In, I, andb_true_iff, !negb_true_iff, !Nat.eqb_neq. intuition congruence.
  - cbn [nbs neighbour]. split; assumption.
  - cbn [neighbour]. destruct (stuck (run h)) as [g|]; [rewrite read_nbs; split; assumption|].
    destruct (evq (run h)) as [|g q]; cbn [fst]; [split; assumption|].
    destruct (mem g (nbs (run h))); [rewrite read_nbs; split; assumption|cbn; split; assumption].
Qed.

(** C88 (flooding at a node).  Whatever happened before: what is read from a
    neighbour is written once to each other neighbour that the node has at
    that moment, and to nobody else. *)
Theorem written_to_all_others :
  forall h e f p ws, outcome e h = Flood f p ws ->
  NoDup ws /\ forall g q, In (g, q) ws <-> (q = p /\ neighbour g h = true /\ g <> f).
Proof.
  intros h e f p ws O. destruct (nbs_spec h) as (N & I).
  assert (W : ws = dt_packet Nat.eqb (nbs (run h)) p f).
  { unfold outcome, step in O. destruct e as [g|g|g q|]; try discriminate.
    assert (K : forall g q, snd (read_flood (run h) g q) = Flood f p ws -> ws = dt_packet Nat.eqb (nbs (run h)) p f).
    { intros g q. unfold read_flood. destruct (flow_read (ring (run h) g) (prt (run h) g)) as [[[p' r] pt]|]; [|discriminate].
      cbn. intros Q. injection Q as -> -> <-. reflexivity. }
    destruct (stuck (run h)) as [g|]; [apply (K _ _ O)|].
    destruct (evq (run h)) as [|g q]; [discriminate|].
    destruct (mem g (nbs (run h))); [apply (K _ _ O)|discriminate]. }
  subst ws. unfold dt_packet. split.
  - apply Injective_map_NoDup; [intros a b Q; congruence|]. apply NoDup_filter. exact N.
  - intros g q. rewrite in_map_iff. split.
    + intros (x & Q & X). injection Q as -> ->. apply filter_In in X. destruct X as (X & Y).
      rewrite negb_true_iff, Nat.eqb_neq in Y. split; [reflexivity|]. split; [apply I; exact X|exact Y].
    + intros (-> & G & F). exists g. split; [reflexivity|]. apply filter_In. split; [apply I; exact G|].
      rewrite negb_true_iff, Nat.eqb_neq. exact F.
Qed.
Print Assumptions written_to_all_others.

Definition cnt (f : fd) (l : list fd) : nat := count_occ Nat.eq_dec l f.
Lemma cnt_app : forall f l g, cnt f (l ++ [g]) = cnt f l + (if Nat.eqb g f then 1 else 0).
Proof.
  intros. unfold cnt. rewrite count_occ_app. cbn. destruct (Nat.eq_dec g f), (Nat.eqb_spec g f); try congruence; lia.
Qed.
Lemma cnt_cons : forall f l g, cnt f (g :: l) = cnt f l + (if Nat.eqb g f then 1 else 0).
Proof.
  intros. unfold cnt. cbn. destruct (Nat.eq_dec g f), (Nat.eqb_spec g f); try congruence; lia.
Qed.

Record good (h : list event) : Prop := Good {
  g_new : forall f, added f h = false -> neighbour f h = false /\ arrived f h = [] /\ flooded f h = [] /\
            ring (run h) f = [] /\ cnt f (evq (run h)) = 0;
  g_now : forall f, neighbour f h = true -> arrived f h = flooded f h ++ ring (run h) f /\
            cnt f (evq (run h)) = length (ring (run h) f);
  g_pre : forall f, exists r, arrived f h = flooded f h ++ r;
  g_stuck : stuck (run h) = None;
  g_part : forall f, prt (run h) f = NoPart;
  g_usual : forall f, Forall usual (ring (run h) f)
}.

Lemma neighbour_added : forall h f, neighbour f h = true -> added f h = true.
Proof.
  induction h as [|e h IH]; intros f H; cbn in *; [discriminate|].
  destruct e; cbn in *; try (apply IH; exact H).
  - apply orb_true_iff in H. apply orb_true_iff. destruct H; [tauto|right; apply IH; assumption].
  - apply andb_true_iff in H. apply IH. tauto.
Qed.

Lemma usual_read : forall p r, usual p -> flow_read (p :: r) NoPart = Some (p, r, NoPart).
Proof.
  intros p r (U1 & U2). unfold flow_read, first_valid. destruct p as [|b p]; [cbn in U1; lia|].
  unfold BROADCAST_MTU. destruct (Nat.ltb_spec (length (b :: p)) 1400); [reflexivity|lia].
Qed.

Lemma good_turn : forall h, good h ->
  match evq (run h) with
  | [] => run (Turn :: h) = run h /\ outcome Turn h = Nothing
  | f :: q =>
      evq (run (Turn :: h)) = q /\ stuck (run (Turn :: h)) = None /\ (forall g, prt (run (Turn :: h)) g = NoPart) /\
      if neighbour f h then exists p r, ring (run h) f = p :: r /\ ring (run (Turn :: h)) = upd (ring (run h)) f r /\
                               exists ws, outcome Turn h = Flood f p ws
      else ring (run (Turn :: h)) = ring (run h) /\ outcome Turn h = Nothing
  end.
Proof.
  intros h G. rewrite run_cons. unfold outcome, step. rewrite (g_stuck h G).
  destruct (evq (run h)) as [|f q] eqn:E; [split; reflexivity|].
  destruct (neighbour f h) eqn:N.
  - assert (M : mem f (nbs (run h)) = true) by (apply mem_in; apply nbs_spec; exact N). rewrite M.
    destruct (g_now h G f N) as (A & C). rewrite E, cnt_cons, Nat.eqb_refl in C.
    pose proof (g_usual h G f) as U. unfold read_flood. rewrite (g_part h G f).
    destruct (ring (run h) f) as [|p r] eqn:R; [cbn in C; lia|]. inversion U; subst.
    rewrite usual_read by assumption. cbn [fst snd evq stuck prt ring].
    split; [reflexivity|]. split; [reflexivity|]. split.
    + intros g. unfold upd. destruct (Nat.eqb g f); [reflexivity|apply (g_part h G)].
    + exists p, r. split; [reflexivity|]. split; [reflexivity|]. eexists; reflexivity.
  - destruct (mem f (nbs (run h))) eqn:M.
    + apply mem_in in M. apply nbs_spec in M. congruence.
    + cbn [fst snd evq stuck prt ring]. split; [reflexivity|]. split; [reflexivity|].
      split; [apply (g_part h G)|]. split; reflexivity.
Qed.

Lemma flooded_turn : forall h f, flooded f (Turn :: h) =
  match outcome Turn h with Flood g p _ => if Nat.eqb g f then flooded f h ++ [p] else flooded f h | Nothing => flooded f h end.
Proof. reflexivity. Qed.
Lemma flooded_keep : forall e h f, outcome e h = Nothing -> flooded f (e :: h) = flooded f h.
Proof. intros e h f H. cbn. rewrite H. reflexivity. Qed.

Lemma all_good : forall h, from_neighbours h -> no_reuse h -> packets usual h -> good h.
Proof.
  induction h as [|e h IH]; intros F R U.
  - constructor; cbn; intros.
    + repeat split.
    + discriminate.
    + exists []. reflexivity.
    + reflexivity.
    + reflexivity.
    + constructor.
  - assert (G : good h).
    { apply IH; destruct e; cbn in F, R, U; tauto. }
    destruct e as [g|g|g p|].
    + assert (RR : ring (run (Add g :: h)) = ring (run h) /\ evq (run (Add g :: h)) = evq (run h) /\
                   stuck (run (Add g :: h)) = stuck (run h) /\ prt (run (Add g :: h)) = prt (run h)).
      { rewrite run_cons. cbn. destruct (mem g (nbs (run h))); repeat split. }
      destruct RR as (R1 & R2 & R3 & R4). destruct R as (R & _).
      constructor; rewrite ?R1, ?R2, ?R3, ?R4; intros; rewrite ?flooded_keep by reflexivity; cbn [arrived].
      * cbn [added] in H. apply orb_false_iff in H. destruct H as (H1 & H2).
        destruct (g_new h G f H2) as (A1 & A2 & A3 & A4 & A5). cbn [neighbour]. rewrite H1. auto.
      * cbn [neighbour] in H. destruct (Nat.eqb_spec g f) as [E|E].
        -- subst. destruct (g_new h G f R) as (_ & A2 & A3 & A4 & A5). rewrite A2, A3, A4, A5. split; reflexivity.
        -- apply (g_now h G). exact H.
      * apply (g_pre h G).
      * apply (g_stuck h G).
      * apply (g_part h G).
      * apply (g_usual h G).
    + assert (RR : ring (run (Del g :: h)) = upd (ring (run h)) g [] /\ evq (run (Del g :: h)) = evq (run h) /\
                   stuck (run (Del g :: h)) = None /\ prt (run (Del g :: h)) = upd (prt (run h)) g NoPart).
      { rewrite run_cons. cbn. rewrite (g_stuck h G). repeat split. }
      destruct RR as (R1 & R2 & R3 & R4).
      constructor; rewrite ?R1, ?R2, ?R3, ?R4; intros; rewrite ?flooded_keep by reflexivity; cbn [arrived].
      * cbn [added] in H. destruct (g_new h G f H) as (A1 & A2 & A3 & A4 & A5).
        cbn [neighbour]. rewrite A1, andb_false_r. unfold upd. destruct (Nat.eqb f g); auto.
      * cbn [neighbour] in H. apply andb_true_iff in H. destruct H as (H1 & H2).
        rewrite negb_true_iff, Nat.eqb_neq in H1. unfold upd.
        destruct (Nat.eqb_spec f g) as [E|E]; [congruence|]. apply (g_now h G). exact H2.
      * apply (g_pre h G).
      * reflexivity.
      * unfold upd. destruct (Nat.eqb f g); [reflexivity|apply (g_part h G)].
      * unfold upd. destruct (Nat.eqb f g); [constructor|apply (g_usual h G)].
    + destruct F as (F1 & F2). destruct U as (U1 & U2).
      assert (RR : ring (run (Arrive g p :: h)) = upd (ring (run h)) g (ring (run h) g ++ [p]) /\
                   evq (run (Arrive g p :: h)) = evq (run h) ++ [g] /\
                   stuck (run (Arrive g p :: h)) = stuck (run h) /\ prt (run (Arrive g p :: h)) = prt (run h)).
      { rewrite run_cons. cbn. repeat split. }
      destruct RR as (R1 & R2 & R3 & R4).
      constructor; rewrite ?R1, ?R2, ?R3, ?R4; intros; rewrite ?flooded_keep by reflexivity; cbn [arrived].
      * cbn [added] in H. destruct (g_new h G f H) as (A1 & A2 & A3 & A4 & A5). unfold upd.
        rewrite cnt_app. destruct (Nat.eqb_spec g f) as [E|E]; [subst; congruence|].
        destruct (Nat.eqb_spec f g) as [E'|E']; [congruence|]. cbn [neighbour]. rewrite A5. auto.
      * cbn [neighbour] in H. destruct (g_now h G f H) as (A & B). unfold upd. rewrite cnt_app.
        destruct (Nat.eqb_spec g f) as [E|E].
        -- subst. rewrite Nat.eqb_refl, A, app_length, <- app_assoc. cbn. split; [reflexivity|lia].
        -- destruct (Nat.eqb_spec f g) as [E'|E']; [congruence|]. split; [exact A|lia].
      * destruct (Nat.eqb_spec g f) as [E|E]; [|apply (g_pre h G)].
        destruct (g_pre h G f) as (r & A). exists (r ++ [p]). rewrite A, app_assoc. reflexivity.
      * apply (g_stuck h G).
      * apply (g_part h G).
      * unfold upd. destruct (Nat.eqb f g); [|apply (g_usual h G)].
        apply Forall_app. split; [apply (g_usual h G)|constructor; [exact U1|constructor]].
    + pose proof (good_turn h G) as T. destruct (evq (run h)) as [|f q] eqn:E.
      * destruct T as (T1 & T2).
        constructor; rewrite ?T1; intros; rewrite ?flooded_keep by exact T2; cbn [arrived].
        -- apply (g_new h G). exact H.
        -- apply (g_now h G). exact H.
        -- apply (g_pre h G).
        -- apply (g_stuck h G).
        -- apply (g_part h G).
        -- apply (g_usual h G).
      * destruct T as (T1 & T2 & T3 & T4). destruct (neighbour f h) eqn:N.
        -- destruct T4 as (p & r & P1 & P2 & ws & P3).
           constructor; rewrite ?T1, ?T2, ?P2; intros; rewrite ?flooded_turn, ?P3; cbn [arrived].
           ++ cbn [added] in H. destruct (g_new h G f0 H) as (A1 & A2 & A3 & A4 & A5).
              rewrite E, cnt_cons in A5. destruct (Nat.eqb_spec f f0) as [Q|Q]; [subst; congruence|].
              unfold upd. destruct (Nat.eqb_spec f0 f) as [Q'|Q']; [congruence|]. cbn [neighbour].
              repeat split; try assumption. lia.
           ++ cbn [neighbour] in H. destruct (g_now h G f0 H) as (A & B). rewrite E, cnt_cons in B.
              unfold upd. destruct (Nat.eqb_spec f f0) as [Q|Q].
              ** subst. rewrite Nat.eqb_refl, A, P1, <- app_assoc. cbn. split; [reflexivity|].
                 rewrite P1 in B. cbn in B. lia.
              ** destruct (Nat.eqb_spec f0 f) as [Q'|Q']; [congruence|]. split; [exact A|lia].
           ++ destruct (Nat.eqb_spec f f0) as [Q|Q]; [|apply (g_pre h G)]. subst.
              destruct (g_now h G f0 N) as (A & B). exists r. rewrite A, P1, <- app_assoc. reflexivity.
           ++ reflexivity.
           ++ apply T3.
           ++ unfold upd. destruct (Nat.eqb_spec f0 f) as [Q|Q]; [|apply (g_usual h G)]. subst.
              pose proof (g_usual h G f) as V. rewrite P1 in V. inversion V; assumption.
        -- destruct T4 as (P2 & P3).
           constructor; rewrite ?T1, ?T2, ?P2; intros; rewrite ?flooded_turn, ?P3; cbn [arrived].
           ++ cbn [added] in H. destruct (g_new h G f0 H) as (A1 & A2 & A3 & A4 & A5).
              rewrite E, cnt_cons in A5. cbn [neighbour]. repeat split; try assumption. lia.
           ++ cbn [neighbour] in H. destruct (g_now h G f0 H) as (A & B). rewrite E, cnt_cons in B.
              split; [exact A|]. destruct (Nat.eqb_spec f f0) as [Q|Q]; [subst; congruence|lia].
           ++ apply (g_pre h G).
           ++ reflexivity.
           ++ apply T3.
           ++ apply (g_usual h G).
Qed.

Lemma rep_shift : forall n (h : list event), repeat Turn (S n) ++ h = repeat Turn n ++ Turn :: h.
Proof. induction n as [|n IH]; intros h; [reflexivity|]. cbn [repeat app] in *. rewrite IH. reflexivity. Qed.

(** C88 (nothing is lost at a node).  If packets have between 1 and 1399
    bytes and come from neighbours, and a descriptor is not used again for
    another neighbour: the packets of a neighbour are sent on whole and in
    the order in which they came, and when the reader has caught up all of
    them have been.  Missing for the full claim: see the refutations. *)
Theorem sent_on_in_order_partial :
  forall h f, from_neighbours h -> no_reuse h -> packets usual h ->
  (exists rest, arrived f h = flooded f h ++ rest) /\
  (neighbour f h = true -> exists n, flooded f (repeat Turn n ++ h) = arrived f h).
Proof.
  intros h f F R U. pose proof (all_good h F R U) as G. split; [apply (g_pre h G)|].
  intros N. remember (length (evq (run h))) as n eqn:E. revert h F R U G N E.
  induction n as [|n IH]; intros h F R U G N E.
  - exists 0. cbn. destruct (g_now h G f N) as (A & B). destruct (evq (run h)); [|discriminate].
    cbn in B. destruct (ring (run h) f); [rewrite app_nil_r in A; symmetry; exact A|discriminate].
  - pose proof (good_turn h G) as T. destruct (evq (run h)) as [|g q]; [discriminate|].
    destruct T as (T1 & _). injection E as E.
    destruct (IH (Turn :: h) F R U (all_good (Turn :: h) F R U) N) as (k & K); [rewrite T1; exact E|].
    exists (S k). rewrite rep_shift. exact K.
Qed.
Print Assumptions sent_on_in_order_partial.

(** States in which the reader does nothing. *)
Lemma still_in : forall (P : node -> Prop) h f l, P (run h) ->
  (forall s, P s -> snd (step s Turn) = Nothing /\ P (fst (step s Turn))) -> flooded f h = l ->
  forall n, flooded f (repeat Turn n ++ h) = l.
Proof.
  intros P h f l R O L n.
  assert (Q : P (run (repeat Turn n ++ h)) /\ flooded f (repeat Turn n ++ h) = l).
  { induction n as [|n (I1 & I2)]; [split; [exact R|exact L]|].
    cbn [repeat app]. destruct (O _ I1) as (O1 & O2). split.
    - rewrite run_cons. exact O2.
    - rewrite flooded_keep; [exact I2|]. exact O1. }
  apply Q.
Qed.
Lemma still : forall h f l, run (Turn :: h) = run h -> outcome Turn h = Nothing -> flooded f h = l ->
  forall n, flooded f (repeat Turn n ++ h) = l.
Proof.
  intros h f l R O L. apply (still_in (fun s => s = run h)); [reflexivity| |exact L].
  intros s ->. split; [exact O|exact R].
Qed.
Lemma stuck_turn : forall f s, (stuck s = Some f /\ ring s f = [] /\ prt s f = NoPart) ->
  snd (step s Turn) = Nothing /\
  (stuck (fst (step s Turn)) = Some f /\ ring (fst (step s Turn)) f = [] /\ prt (fst (step s Turn)) f = NoPart).
Proof.
  intros f s (A & B & C). unfold step. rewrite A. unfold read_flood. rewrite B, C. cbn.
  unfold upd. rewrite Nat.eqb_refl. repeat split. exact C.
Qed.

Definition bytes (n : nat) : pkt := repeat 7%Z n.

(** Refuted: packets that fill the reader's buffer.  After a packet of
    1400 bytes an empty packet is sent on instead of the next one, which
    stays behind. *)
Lemma full_flow_read : forall p r, length p = 1400 -> flow_read (p :: r) NoPart = Some (p, r, DonePart).
Proof.
  intros p r L. unfold flow_read, first_valid. destruct p as [|b p]; [discriminate|].
  unfold BROADCAST_MTU. rewrite L. rewrite Nat.ltb_irrefl, Nat.eqb_refl. reflexivity.
Qed.
Theorem full_packet_refuted :
  ~ (forall h f, from_neighbours h -> no_reuse h -> packets (fun p => 0 < length p <= 1400) h ->
       neighbour f h = true -> exists n, flooded f (repeat Turn n ++ h) = arrived f h).
Proof.
  intros H. set (big := bytes 1400). assert (L : length big = 1400) by apply repeat_length.
  clearbody big.
  destruct (H [Turn; Turn; Arrive 1 [5%Z]; Arrive 1 big; Add 1] 1) as (n & Q).
  - cbn. tauto.
  - cbn. tauto.
  - cbn -[Nat.le Nat.lt]. cbv beta. rewrite L. repeat split; cbn; lia.
  - reflexivity.
  - set (h0 := [Arrive 1 [5%Z]; Arrive 1 big; Add 1]) in *.
    assert (R0 : ring (run h0) 1 = [big; [5%Z]] /\ evq (run h0) = [1; 1] /\ nbs (run h0) = [1] /\ stuck (run h0) = None /\ prt (run h0) 1 = NoPart)
      by (repeat split).
    destruct R0 as (R1 & R2 & R3 & R4 & R5).
    assert (S1 : step (run h0) Turn = (Node [1] (upd (ring (run h0)) 1 [[5%Z]]) (upd (prt (run h0)) 1 DonePart) [1] None,
                                       Flood 1 big [])).
    { unfold step. rewrite R4, R2, R3. cbn [mem existsb Nat.eqb orb]. unfold read_flood. rewrite R1, R5, R3.
      rewrite full_flow_read by exact L. reflexivity. }
    set (h1 := Turn :: h0) in *.
    assert (E1 : run h1 = Node [1] (upd (ring (run h0)) 1 [[5%Z]]) (upd (prt (run h0)) 1 DonePart) [1] None)
      by (unfold h1; rewrite run_cons, S1; reflexivity).
    assert (S2 : step (run h1) Turn = (Node [1] (upd (upd (ring (run h0)) 1 [[5%Z]]) 1 [[5%Z]]) (upd (upd (prt (run h0)) 1 DonePart) 1 NoPart) [] None,
                                       Flood 1 [] [])).
    { rewrite E1. reflexivity. }
    assert (F : flooded 1 (Turn :: h1) = [big; []]).
    { cbn [flooded]. unfold outcome at 1. rewrite S2. cbn [snd Nat.eqb]. unfold h1 at 1. cbn [flooded].
      unfold outcome. rewrite S1. cbn. reflexivity. }
    rewrite (still (Turn :: h1) 1 [big; []]) in Q.
    + cbn in Q. discriminate Q.
    + rewrite run_cons. unfold step. rewrite run_cons, S2. reflexivity.
    + unfold outcome, step. rewrite run_cons, S2. reflexivity.
    + exact F.
Qed.
Print Assumptions full_packet_refuted.

(** Refuted: longer packets.  Only the first 1400 bytes are sent on. *)
Theorem long_packet_refuted :
  ~ (forall h f p, from_neighbours h -> no_reuse h -> neighbour f h = true ->
       arrived f h = [p] -> 1400 < length p -> exists n, In p (flooded f (repeat Turn n ++ h))).
Proof.
  intros H. set (big := bytes 1401). assert (L : length big = 1401) by apply repeat_length.
  clearbody big.
  destruct (H [Turn; Arrive 1 big; Add 1] 1 big) as (n & Q); try (cbn; tauto); try reflexivity; [rewrite L; apply Nat.lt_succ_diag_r|].
  set (h0 := [Arrive 1 big; Add 1]) in *.
  assert (R1 : ring (run h0) 1 = [big]) by reflexivity.
  assert (R2 : evq (run h0) = [1]) by reflexivity.
  assert (FR : flow_read [big] NoPart = Some (firstn 1400 big, [], SomePart)).
  { unfold flow_read, first_valid. destruct big as [|b big]; [discriminate|]. unfold BROADCAST_MTU.
    destruct (Nat.ltb_spec (length (b :: big)) 1400) as [A|A]; [lia|].
    destruct (Nat.eqb_spec (length (b :: big)) 1400) as [B|B]; [lia|]. reflexivity. }
  assert (S1 : step (run h0) Turn = (Node [1] (upd (ring (run h0)) 1 []) (upd (prt (run h0)) 1 SomePart) [] None,
                                     Flood 1 (firstn 1400 big) [])).
  { unfold step. change (stuck (run h0)) with (@None fd). rewrite R2. change (nbs (run h0)) with [1].
    cbn [mem existsb Nat.eqb orb]. unfold read_flood. rewrite R1. change (prt (run h0) 1) with NoPart.
    rewrite FR. reflexivity. }
  rewrite (still (Turn :: h0) 1 [firstn 1400 big]) in Q.
  - destruct Q as [Q|[]]. apply (f_equal (@length Z)) in Q. rewrite firstn_length, L in Q. lia.
  - rewrite run_cons. unfold step. rewrite run_cons, S1. reflexivity.
  - unfold outcome, step. rewrite run_cons, S1. reflexivity.
  - cbn [flooded]. unfold outcome at 1. rewrite S1. reflexivity.
Qed.
Print Assumptions long_packet_refuted.

(** Refuted: a neighbour that sends an empty packet stops the reader for
    all others. *)
Theorem empty_packet_refuted :
  ~ (forall h f, from_neighbours h -> no_reuse h -> packets (fun p => length p < 1400) h ->
       neighbour f h = true -> Forall usual (arrived f h) ->
       exists n, flooded f (repeat Turn n ++ h) = arrived f h).
Proof.
  intros H. destruct (H [Turn; Turn; Arrive 2 [5%Z]; Arrive 1 []; Add 2; Add 1] 2) as (n & Q);
    try (cbn; tauto); try reflexivity.
  - cbn -[Nat.lt]. repeat split; cbn; lia.
  - cbn. constructor; [unfold usual; cbn; lia|constructor].
  - rewrite (still_in (fun s => stuck s = Some 1 /\ ring s 1 = [] /\ prt s 1 = NoPart) _ 2 []) in Q;
      [discriminate Q|repeat split|apply (stuck_turn 1)|reflexivity].
Qed.
Print Assumptions empty_packet_refuted.

(** Refuted: when a descriptor is used again, an event of the neighbour
    that left makes the reader wait for the new one, and all others with
    it. *)
Theorem reused_descriptor_blocks_refuted :
  ~ (forall h f, from_neighbours h -> packets usual h -> neighbour f h = true ->
       exists n, flooded f (repeat Turn n ++ h) = arrived f h).
Proof.
  intros H. destruct (H [Turn; Arrive 2 [5%Z]; Add 2; Add 1; Del 1; Arrive 1 [6%Z]; Add 1] 2) as (n & Q);
    try (cbn; tauto); try reflexivity.
  - cbn -[Nat.lt]. unfold usual. repeat split; cbn; lia.
  - rewrite (still_in (fun s => stuck s = Some 1 /\ ring s 1 = [] /\ prt s 1 = NoPart) _ 2 []) in Q;
      [discriminate Q|repeat split|apply (stuck_turn 1)|reflexivity].
Qed.
Print Assumptions reused_descriptor_blocks_refuted.

Example node_floods :
  let h := [Arrive 1 [8%Z]; Arrive 2 [5%Z]; Arrive 1 [6%Z]; Add 3; Add 2; Add 1] in
  from_neighbours h /\ no_reuse h /\ packets usual h /\
  outcome Turn h = Flood 1 [6%Z] [(2, [6%Z]); (3, [6%Z])] /\
  outcome Turn (Turn :: h) = Flood 2 [5%Z] [(1, [5%Z]); (3, [5%Z])] /\
  flooded 1 (repeat Turn 3 ++ h) = [[6%Z]; [8%Z]].
Proof. cbn -[Nat.lt]. unfold usual. repeat split; cbn; lia. Qed.
