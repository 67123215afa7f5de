(* C84: a local flow connects its two ends and nobody else.  For every order of
   allocations, deallocations, writes and steps of the packet thread. *)
From Coq Require Import List Bool Arith Lia.
From Verif Require Import LocalModel LocalSpec LocalProofs.
Import ListNotations.

(* Nobody receives a packet that was not written at the other end of their
   flow, and each receives them in the order they were written, once. *)
Theorem local_isolation_partial : forall h, every careful h ->
  (forall b x, In x (got (run h) b) -> paired h (fst x) b) /\
  (forall a b, paired h a b -> sub (got (run h) b) (sent h a)).
Proof.
  intros h G. split.
  - intros b x. apply got_inv. exact G.
  - intros a b Hp. pose proof (order_inv h a b G) as P.
    assert (E : filter (from a) (got (run h) b) = got (run h) b).
    { assert (K : forall l, (forall x, In x l -> fst x = a) -> filter (from a) l = l).
      { induction l as [|x l IH]; intros H; [reflexivity|]. cbn [filter]. unfold from at 1.
        rewrite (H x (or_introl eq_refl)), Nat.eqb_refl. f_equal. apply IH. intros y Hy. apply H. right. exact Hy. }
      apply K. intros x Hx. pose proof (got_inv h b x G Hx) as Q.
      apply paired_sym in Q, Hp. exact (partner_unique h b _ _ G Q Hp). }
    rewrite E in P. eapply sub_trans; [|exact P].
    rewrite <- (app_nil_r (got (run h) b)) at 1. apply sub_app; [apply sub_refl|apply sub_nil].
Qed.
Print Assumptions local_isolation_partial.

(* While neither end is being deallocated nothing is lost: what was written at
   one end is what the other end has received, what the thread carries and what
   is waiting in the ring. *)
Theorem local_no_loss_partial : forall h a b, every careful h ->
  paired h a b -> ~ ending h a -> ~ ending h b ->
  sent h a = got (run h) b ++ carried (loop (run h)) a ++ rx (run h) a.
Proof. intros h a b. apply exact_inv. Qed.
Print Assumptions local_no_loss_partial.

(* And a waiting packet is delivered by one turn of the thread. *)
Theorem local_delivers_partial : forall h a b x q, every careful h ->
  paired h a b -> ~ ending h a -> ~ ending h b ->
  loop (run h) = Idle -> rx (run h) a = x :: q ->
  exists f, flows (run h) f = Some a /\
    got (run (Deliver :: Look :: Read :: Next f :: h)) b = got (run h) b ++ [x].
Proof.
  intros h a b x q G Hp Na Nb El Er.
  assert (Hs : sent h a <> []).
  { rewrite (exact_inv h a b G Hp Na Nb), Er. intros Q. apply app_eq_nil in Q. destruct Q as [_ Q].
    apply app_eq_nil in Q. destruct Q as [_ Q]. discriminate. }
  destruct (connected_table h a G (sent_connected h a G Hs) Na) as (f & o & Hi & Ho).
  pose proof (owner_flows h f a G Ho Na) as Hf.
  destruct (table_inv h f o G Hi) as (a' & b' & HR & O1 & O2 & _).
  assert (a' = a) by congruence. subst a'.
  assert (b' = b) by (apply (partner_unique h a b' b G); [exists f, o; exact HR|exact Hp]). subst b'.
  pose proof (owner_flows h o b G O2 Nb) as Hfo.
  assert (Hd : down (run h) b = false).
  { destruct (down (run h) b) eqn:Q; [|reflexivity]. elim Nb. apply down_ending; auto. }
  exists f. split; [exact Hf|].
  cbn [run]. remember (run h) as s. destruct s as [fl i d c r lo g ls cr].
  cbn [flows ino down cleared rx loop got lost crashed] in *. subst lo.
  cbn [step flows ino down cleared rx loop got lost crashed]. rewrite Hf, Er.
  cbn [step flows ino down cleared rx loop got lost crashed]. rewrite Hi.
  cbn [step flows ino down cleared rx loop got lost crashed]. rewrite Hfo, Hd.
  cbn [got]. apply upd_eq.
Qed.
Print Assumptions local_delivers_partial.

(* The only packets whose memory is lost are those of flows with an end that is
   being deallocated. *)
Theorem local_memory_partial : forall h x, every careful h -> In x (lost (run h)) ->
  ending h (fst x) \/ exists b, paired h (fst x) b /\ ending h b.
Proof. intros h x. apply lost_inv. Qed.
Print Assumptions local_memory_partial.

(* The answer to an allocation request finds the end that made the request,
   once the requesting side has stored the connection. *)
Theorem local_response_partial : forall h h' f a o b, every careful h ->
  In (Table f a o b) h -> ~ ending h a -> ~ ending h b ->
  resp_look (run h) (run h') o = Some f /\ flows (run h) f = Some a.
Proof.
  intros h h' f a o b G HT Na Nb.
  assert (Ca : connected h a) by (exists f, o, b; left; exact HT).
  assert (Cb : connected h b) by (exists o, f, a; right; exact HT).
  assert (HR : In (Req f a o b) h).
  { clear - G HT. induction h as [|e h IH]; [contradiction|]. destruct G as [(E & _) G].
    destruct HT as [->|HT]; [right; exact E|right; exact (IH G HT)]. }
  assert (NC : ~ closed h a \/ ~ closed h b) by (left; intros Q; apply Na, closed_ending; auto).
  destruct (req_owner h f a o b G HR NC) as [Of Oo].
  destruct (connected_table h b G Cb Nb) as (o' & f' & Hi & Ho').
  assert (o' = o) by exact (owner_inj h o' o b G Ho' Oo). subst o'.
  destruct (table_inv h o f' G Hi) as (b' & a' & HR' & O1 & O2 & _).
  assert (b' = b) by congruence. subst b'.
  assert (a' = a).
  { apply (partner_unique h b a' a G); [exists o, f'; exact HR'|exists o, f; right; exact HR]. }
  subst a'. assert (f' = f) by exact (owner_inj h f' f a G O2 Of). subst f'.
  split; [unfold resp_look; rewrite Hi; reflexivity|]. apply owner_flows; auto.
Qed.
Print Assumptions local_response_partial.

(* ---- deciding the conditions on concrete histories ---- *)
Definition nameb (e : event) (a : nat) : bool :=
  match e with Open _ c => Nat.eqb c a | Req _ _ _ b => Nat.eqb b a | _ => false end.
Definition freshb h a := forallb (fun e => negb (nameb e a)) h.
Definition lonelyb h a :=
  forallb (fun e => match e with Req _ c _ b => negb (Nat.eqb c a) && negb (Nat.eqb b a) | _ => true end) h.
Definition ev_eqb (x y : event) : bool :=
  match x, y with
  | Req f a o b, Req f' a' o' b' | Table f a o b, Table f' a' o' b' =>
      Nat.eqb f f' && Nat.eqb a a' && Nat.eqb o o' && Nat.eqb b b'
  | Fini f a, Fini f' a' | Close f a, Close f' a' => Nat.eqb f f' && Nat.eqb a a'
  | _, _ => false
  end.
Definition memb e h := existsb (ev_eqb e) h.
Definition endingb h a := existsb (fun e => match e with Fini _ c => Nat.eqb c a | _ => false end) h.
Definition closedb h a := existsb (fun e => match e with Close _ c => Nat.eqb c a | _ => false end) h.
Definition oeqb (x y : option nat) : bool :=
  match x, y with Some a, Some b => Nat.eqb a b | None, None => true | _, _ => false end.

Definition env_okb (fds : list nat) (h : list event) (e : event) : bool :=
  let s := run h in
  match e with
  | Open fd a => oeqb (flows s fd) None && freshb h a
  | Req fd a o b => oeqb (flows s fd) (Some a) && oeqb (flows s o) None && freshb h b && negb (Nat.eqb a b) && lonelyb h a
  | Table fd a o b => memb (Req fd a o b) h
  | Fini fd a => oeqb (flows s fd) (Some a)
  | Untable fd a => oeqb (flows s fd) (Some a) && memb (Fini fd a) h
  | Close fd a => oeqb (flows s fd) (Some a) && cleared s a
  | Write a p => negb (down s a) && existsb (fun fd => oeqb (flows s fd) (Some a)) fds
  | Next fd => negb (oeqb (flows s fd) None)
  | _ => true
  end.
Definition givesb (e : event) : option nat :=
  match e with Open f _ => Some f | Req _ _ o _ => Some o | _ => None end.
Definition no_staleb h e :=
  match givesb e with
  | Some fd => forallb (fun r => match r with
       | Req f a o b => negb (Nat.eqb f fd || Nat.eqb o fd) || (closedb h a && closedb h b)
       | _ => true end) h
  | None => true
  end.
Definition no_carryb h e :=
  match givesb e with
  | Some fd => match loop (run h) with Held g _ | Out g _ => negb (Nat.eqb g fd) | _ => true end
  | None => true
  end.
Definition no_lateb h e :=
  match e with Table _ a _ b => negb (endingb h a) && negb (endingb h b) | _ => true end.
Definition no_earlyb h e :=
  match e with
  | Write a _ => existsb (fun t => match t with Table _ c _ d => Nat.eqb c a || Nat.eqb d a | _ => false end) h
  | _ => true
  end.
Fixpoint everyb (P : list event -> event -> bool) h :=
  match h with [] => true | e :: h' => P h' e && everyb P h' end.

Lemma oeqb_eq x y : oeqb x y = true -> x = y.
Proof. destruct x, y; cbn; intros H; try discriminate; auto. apply Nat.eqb_eq in H. congruence. Qed.
Lemma oeqb_ne x y : negb (oeqb x y) = true -> x <> y.
Proof. intros H ->. destruct y; cbn in H; [rewrite Nat.eqb_refl in H|]; discriminate. Qed.
Lemma freshb_ok h a : freshb h a = true -> fresh h a.
Proof.
  intros H e He Hn. unfold freshb in H. rewrite forallb_forall in H. specialize (H e He).
  destruct e; cbn in *; try contradiction; subst; rewrite Nat.eqb_refl in H; discriminate.
Qed.
Lemma lonelyb_ok h a : lonelyb h a = true -> forall c, ~ paired h a c.
Proof.
  unfold lonelyb. rewrite forallb_forall. intros H c (f & o & [Q|Q]); specialize (H _ Q); cbn in H;
    rewrite Nat.eqb_refl in H; cbn in H; rewrite ?andb_false_r in H; discriminate.
Qed.
Lemma ev_eqb_eq x y : ev_eqb x y = true -> x = y.
Proof.
  destruct x, y; cbn; intros H; try discriminate; rewrite !andb_true_iff, !Nat.eqb_eq in H;
    intuition (subst; reflexivity).
Qed.
Lemma memb_ok e h : memb e h = true -> In e h.
Proof. unfold memb. rewrite existsb_exists. intros (x & Hx & E). apply ev_eqb_eq in E. subst. exact Hx. Qed.
Lemma closedb_ok h a : closedb h a = true -> closed h a.
Proof.
  unfold closedb. rewrite existsb_exists. intros (x & Hx & E). destruct x; try discriminate.
  apply Nat.eqb_eq in E. subst. exists fd. exact Hx.
Qed.
Lemma endingb_ok h a : endingb h a = false -> ~ ending h a.
Proof.
  intros H [f Q]. assert (endingb h a = true); [|congruence].
  unfold endingb. apply existsb_exists. eexists. split; [exact Q|]. apply Nat.eqb_refl.
Qed.
Lemma givesb_ok e fd : gives e fd -> givesb e = Some fd.
Proof. destruct e; cbn; intros H; try contradiction; congruence. Qed.

Lemma env_okb_ok fds h e : env_okb fds h e = true -> env_ok h e.
Proof.
  destruct e; cbn [env_okb env_ok]; rewrite ?andb_true_iff; intros H; auto.
  - destruct H as [H1 H2]. split; [apply oeqb_eq; auto|apply freshb_ok; auto].
  - destruct H as [[[[H1 H2] H3] H4] H5].
    split; [apply oeqb_eq; auto|]. split; [apply oeqb_eq; auto|]. split; [apply freshb_ok; auto|].
    split; [|apply lonelyb_ok; auto]. intros ->. rewrite Nat.eqb_refl in H4. discriminate.
  - apply memb_ok. exact H.
  - apply oeqb_eq. exact H.
  - destruct H as [H1 H2]. split; [apply oeqb_eq; auto|apply memb_ok; auto].
  - destruct H as [H1 H2]. split; [apply oeqb_eq; auto|exact H2].
  - destruct H as [H1 H2]. split; [apply negb_true_iff; exact H1|].
    apply existsb_exists in H2. destruct H2 as (fd & _ & Q). exists fd. apply oeqb_eq. exact Q.
  - apply oeqb_ne. exact H.
Qed.
Lemma no_staleb_ok h e : no_staleb h e = true -> no_stale h e.
Proof.
  intros H fd Hg f a o b Hr Hq. unfold no_staleb in H. rewrite (givesb_ok e fd Hg) in H.
  rewrite forallb_forall in H. specialize (H _ Hr). cbn in H.
  assert (Nat.eqb f fd || Nat.eqb o fd = true) as Q.
  { destruct Hq as [-> | ->]; rewrite Nat.eqb_refl; [reflexivity|apply orb_true_r]. }
  rewrite Q in H. cbn in H. apply andb_true_iff in H. destruct H. split; apply closedb_ok; auto.
Qed.
Lemma no_carryb_ok h e : no_carryb h e = true -> no_carry h e.
Proof.
  intros H fd Hg. unfold no_carryb in H. rewrite (givesb_ok e fd Hg) in H.
  destruct (loop (run h)); auto; intros ->; rewrite Nat.eqb_refl in H; discriminate.
Qed.
Lemma no_lateb_ok h e : no_lateb h e = true -> no_late_table h e.
Proof.
  destruct e; cbn; auto. rewrite andb_true_iff, !negb_true_iff. intros [H1 H2].
  split; apply endingb_ok; auto.
Qed.
Lemma no_earlyb_ok h e : no_earlyb h e = true -> no_early h e.
Proof.
  destruct e; cbn; auto. rewrite existsb_exists. intros (x & Hx & E). destruct x; try discriminate.
  apply orb_true_iff in E. destruct E as [E|E]; apply Nat.eqb_eq in E; subst.
  - exists fd, o, b. left. exact Hx.
  - exists o, fd, a0. right. exact Hx.
Qed.
Lemma everyb_ok (P : list event -> event -> Prop) Pb :
  (forall h e, Pb h e = true -> P h e) -> forall h, everyb Pb h = true -> every P h.
Proof.
  intros K. induction h as [|e h IH]; cbn; [auto|]. rewrite andb_true_iff. intros [H1 H2]. auto.
Qed.
Definition carefulb fds h e :=
  env_okb fds h e && no_staleb h e && no_carryb h e && no_lateb h e && no_earlyb h e.
Lemma carefulb_ok fds h e : carefulb fds h e = true -> careful h e.
Proof.
  unfold carefulb. rewrite !andb_true_iff. intros [[[[H1 H2] H3] H4] H5].
  split; [exact (env_okb_ok fds h e H1)|].
  split; [exact (no_staleb_ok h e H2)|]. split; [exact (no_carryb_ok h e H3)|].
  split; [exact (no_lateb_ok h e H4)|exact (no_earlyb_ok h e H5)].
Qed.

(* One turn of the packet thread for a descriptor (latest first). *)
Definition turn (fd : nat) : list event := [Deliver; Look; Read; Next fd].
(* A flow between 64 and 65 and its deallocation at one end. *)
Definition setup (f a o b : nat) : list event := [Table f a o b; Req f a o b; Open f a].
Definition dealloc (f a : nat) : list event := [Close f a; Untable f a; Fini f a].

(* ---- what goes wrong otherwise ---- *)

(* An end is deallocated and its descriptor is used for the next flow, while
   the other end is still open: what is written there is delivered to a
   stranger.  All other conditions hold. *)
Theorem reused_descriptor_refuted : exists h,
  every (fun h e => env_ok h e /\ no_carry h e /\ no_late_table h e /\ no_early h e) h /\
  exists b x, In x (got (run h) b) /\ ~ paired h (fst x) b.
Proof.
  exists (turn 65 ++ [Write 2 7] ++ setup 64 3 66 4 ++ dealloc 64 1 ++ setup 64 1 65 2).
  split.
  - apply (everyb_ok _ (fun h e => env_okb [64; 65; 66] h e && no_carryb h e && no_lateb h e && no_earlyb h e)).
    + intros h e. rewrite !andb_true_iff. intros [[[H1 H2] H3] H4].
      split; [exact (env_okb_ok _ h e H1)|]. split; [exact (no_carryb_ok h e H2)|].
      split; [exact (no_lateb_ok h e H3)|exact (no_earlyb_ok h e H4)].
    + vm_compute. reflexivity.
  - exists 3, (2, 7). split; [vm_compute; auto|].
    intros (f & o & [H|H]); cbn in H; intuition discriminate.
Qed.
Print Assumptions reused_descriptor_refuted.

(* The same happens when both ends are gone, if the packet thread carries a
   packet for the descriptor at that time. *)
Theorem carried_packet_refuted : exists h,
  every (fun h e => env_ok h e /\ no_stale h e /\ no_late_table h e /\ no_early h e) h /\
  exists b x, In x (got (run h) b) /\ ~ paired h (fst x) b.
Proof.
  exists ([Deliver] ++ setup 64 3 65 4 ++ dealloc 65 2 ++ dealloc 64 1 ++
          [Look; Read; Next 64; Write 1 7] ++ setup 64 1 65 2).
  split.
  - apply (everyb_ok _ (fun h e => env_okb [64; 65] h e && no_staleb h e && no_lateb h e && no_earlyb h e)).
    + intros h e. rewrite !andb_true_iff. intros [[[H1 H2] H3] H4].
      split; [exact (env_okb_ok _ h e H1)|]. split; [exact (no_staleb_ok h e H2)|].
      split; [exact (no_lateb_ok h e H3)|exact (no_earlyb_ok h e H4)].
    + vm_compute. reflexivity.
  - exists 4, (1, 7). split; [vm_compute; auto|].
    intros (f & o & [H|H]); cbn in H; intuition discriminate.
Qed.
Print Assumptions carried_packet_refuted.

(* The thread that allocates stores the connection after both ends have been
   deallocated (the allocation timed out) and their descriptors are in use
   again: it joins two flows that have nothing to do with each other. *)
Theorem late_table_refuted : exists h,
  every (fun h e => env_ok h e /\ no_stale h e /\ no_carry h e /\ no_early h e) h /\
  exists b x, In x (got (run h) b) /\ ~ paired h (fst x) b.
Proof.
  exists (turn 64 ++ [Write 3 7] ++ [Table 64 1 65 2] ++ setup 67 5 65 6 ++ setup 64 3 66 4 ++
          dealloc 65 2 ++ dealloc 64 1 ++ [Req 64 1 65 2; Open 64 1]).
  split.
  - apply (everyb_ok _ (fun h e => env_okb [64; 65; 66; 67] h e && no_staleb h e && no_carryb h e && no_earlyb h e)).
    + intros h e. rewrite !andb_true_iff. intros [[[H1 H2] H3] H4].
      split; [exact (env_okb_ok _ h e H1)|]. split; [exact (no_staleb_ok h e H2)|].
      split; [exact (no_carryb_ok h e H3)|exact (no_earlyb_ok h e H4)].
    + vm_compute. reflexivity.
  - exists 6, (3, 7). split; [vm_compute; auto|].
    intros (f & o & [H|H]); cbn in H; intuition discriminate.
Qed.
Print Assumptions late_table_refuted.

(* A descriptor comes from the event queue and is deallocated before its ring
   is read: the process uses a ring that is gone, in a careful history. *)
Theorem dealloc_during_read_refuted : exists h, every careful h /\ crashed (run h) = true.
Proof.
  exists ([Read] ++ dealloc 64 1 ++ [Next 64] ++ setup 64 1 65 2). split.
  - apply (everyb_ok _ (carefulb [64; 65]) (carefulb_ok [64; 65])). vm_compute. reflexivity.
  - vm_compute. reflexivity.
Qed.
Print Assumptions dealloc_during_read_refuted.

(* Packets written while the other end is deallocated are not delivered and
   their memory is not freed either, in a careful history: every such packet
   takes a block out of the memory that all processes share. *)
Theorem unfreed_packets_refuted : forall n,
  exists h, every careful h /\ sent h 1 = repeat (1, 7) n /\ lost (run h) = repeat (1, 7) n.
Proof.
  set (base := dealloc 65 2 ++ setup 64 1 65 2).
  set (one := turn 64 ++ [Write 1 7]).
  assert (G : forall n, let h := Nat.iter n (fun h => one ++ h) base in
     every careful h /\ (forall x, In x h -> In x base \/ In x one) /\ (forall x, In x base -> In x h) /\
     sent h 1 = repeat (1, 7) n /\ lost (run h) = repeat (1, 7) n /\
     loop (run h) = Idle /\ rx (run h) 1 = [] /\ flows (run h) 64 = Some 1 /\ flows (run h) 65 = None /\
     ino (run h) 64 = Some 65 /\ down (run h) 1 = false).
  { induction n as [|n IH]; cbn zeta in *.
    - cbn [Nat.iter nat_rect]. split; [apply (everyb_ok _ (carefulb [64; 65]) (carefulb_ok [64; 65])); vm_compute; reflexivity|].
      split; [auto|]. split; [auto|]. vm_compute. repeat split.
    - change (Nat.iter (S n) (fun h => one ++ h) base) with
        (one ++ Nat.iter n (fun h => one ++ h) base).
      set (k := Nat.iter n (fun h => one ++ h) base) in *. clearbody k.
      destruct IH as (I1 & I2 & I3 & I4 & I5 & I6 & I7 & I8 & I9 & I10 & I11).
      remember (run k) as s. destruct s as [fl i d c r lo g ls cr].
      cbn [flows ino down cleared rx loop got lost crashed] in *. subst lo.
      set (s0 := Local fl i d c r Idle g ls cr) in *.
      set (s1 := Local fl i d c (upd r 1 [(1, 7)]) Idle g ls cr).
      assert (E1 : run (Write 1 7 :: k) = s1).
      { cbn [run]. rewrite <- Heqs. cbn [step s0 down flows ino cleared rx loop got lost crashed]. rewrite I11, I7. reflexivity. }
      set (s2 := Local fl i d c (upd r 1 [(1, 7)]) (Got 64) g ls cr).
      assert (E2 : run (Next 64 :: Write 1 7 :: k) = s2).
      { change (step (run (Write 1 7 :: k)) (Next 64) = s2). rewrite E1. reflexivity. }
      set (s3 := Local fl i d c (upd (upd r 1 [(1, 7)]) 1 []) (Held 64 (1, 7)) g ls cr).
      assert (E3 : run (Read :: Next 64 :: Write 1 7 :: k) = s3).
      { change (step (run (Next 64 :: Write 1 7 :: k)) Read = s3). rewrite E2. cbn [step s2 loop flows rx].
        rewrite I8. rewrite upd_eq. reflexivity. }
      set (s4 := Local fl i d c (upd (upd r 1 [(1, 7)]) 1 []) (Out 65 (1, 7)) g ls cr).
      assert (E4 : run (Look :: Read :: Next 64 :: Write 1 7 :: k) = s4).
      { change (step (run (Read :: Next 64 :: Write 1 7 :: k)) Look = s4). rewrite E3. cbn [step s3 loop ino].
        rewrite I10. reflexivity. }
      assert (E5 : run (one ++ k) = Local fl i d c (upd (upd r 1 [(1, 7)]) 1 []) Idle g ((1, 7) :: ls) cr).
      { change (run (one ++ k)) with (step (run (Look :: Read :: Next 64 :: Write 1 7 :: k)) Deliver).
        rewrite E4. cbn [step s4 loop flows]. rewrite I9. reflexivity. }
      rewrite E5. cbn [flows ino down cleared rx loop got lost crashed].
      split; [|split; [|split; [|split]]].
      + assert (T1 : forall hh e, givesb e = None -> env_ok hh e -> no_late_table hh e -> no_early hh e -> careful hh e).
        { intros hh e Hg He Hl Hy. split; [exact He|]. split; [|split; [|split; assumption]].
          - intros fd Q. rewrite (givesb_ok e fd Q) in Hg. discriminate.
          - intros fd Q. rewrite (givesb_ok e fd Q) in Hg. discriminate. }
        unfold one, turn. cbn [app every].
        split; [apply T1; [reflexivity|exact I|exact I|exact I]|].
        split; [apply T1; [reflexivity|exact I|exact I|exact I]|].
        split; [apply T1; [reflexivity|exact I|exact I|exact I]|].
        split; [apply T1; [reflexivity| |exact I|exact I]|].
        { cbn [env_ok]. rewrite E1. cbn [s1 flows]. rewrite I8. discriminate. }
        split; [apply T1; [reflexivity| |exact I|]|exact I1].
        { cbn [env_ok]. rewrite <- Heqs. cbn [s0 down flows]. split; [exact I11|]. exists 64. exact I8. }
        { exists 64, 65, 2. left. apply I3. unfold base. cbn. auto. }
      + intros x Hx. apply in_app_iff in Hx. destruct Hx; auto.
      + intros x Hx. apply in_app_iff. auto.
      + unfold one, turn. cbn [app sent]. rewrite I4. cbn [Nat.eqb repeat].
        clear. induction n as [|n IH]; [reflexivity|]. cbn [repeat app]. f_equal. exact IH.
      + cbn [repeat]. rewrite I5. repeat split; auto. }
  intros n. exists (Nat.iter n (fun h => one ++ h) base). destruct (G n) as (G1 & _ & _ & G4 & G5 & _). auto.
Qed.
Print Assumptions unfreed_packets_refuted.

(* The response looks twice, a millisecond apart; if the requesting side has not
   stored the connection by then, the accepted flow fails. *)
Theorem response_race_refuted : exists h, every careful h /\
  In (Req 64 1 65 2) h /\ resp_look (run h) (run h) 65 = None.
Proof.
  exists [Req 64 1 65 2; Open 64 1]. split; [|split; [left; reflexivity|reflexivity]].
  apply (everyb_ok _ (carefulb [64; 65]) (carefulb_ok [64; 65])). vm_compute. reflexivity.
Qed.
Print Assumptions response_race_refuted.

(* A careful history: two flows, both directions, an end deallocated after its
   packets were taken, and descriptors used again. *)
Example careful_history :
  let h := turn 64 ++ [Write 5 9] ++ setup 64 5 65 6 ++ dealloc 65 2 ++ dealloc 64 1 ++
           turn 65 ++ turn 64 ++ turn 66 ++ turn 64 ++ [Write 2 8; Write 1 5; Write 3 6; Write 1 4] ++
           setup 66 3 67 4 ++ setup 64 1 65 2 in
  every careful h /\ got (run h) 2 = [(1, 4); (1, 5)] /\ got (run h) 1 = [(2, 8)] /\
  got (run h) 4 = [(3, 6)] /\ got (run h) 6 = [(5, 9)] /\ paired h 5 6 /\ ~ ending h 5 /\ ~ ending h 6.
Proof.
  cbn zeta. split.
  - apply (everyb_ok _ (carefulb [64; 65; 66; 67]) (carefulb_ok [64; 65; 66; 67])). vm_compute. reflexivity.
  - repeat (split; [vm_compute; reflexivity|]). split; [exists 64, 65; left; cbn; auto 12|].
    split; apply endingb_ok; reflexivity.
Qed.
