(* Proofs about flooding in a network of link-state databases. *)

From Coq Require Import NArith ZArith List Bool Lia Sorted Arith.
From Coq Require Import ZifyBool ZifyNat ZifyN.
From Verif Require Import GraphModel GraphSpec GraphProofs3 GraphProofs5 GraphProofs6 GraphProps LsModel LsProofs.
Import ListNotations.

(* ---- No undefined behaviour with the simple policy ---- *)

Lemma built_length : forall g l, StronglySorted adj_lt l -> built g (links l) ->
  exists ops L rs, links_run [] ops = Some L /\ graph_run graph_create ops = Ok (rs, g) /\
    (forall p, In p L <-> In p (links l)) /\ length L = length l.
Proof.
  intros g l Hs (ops & L & rs & A & B & C). exists ops, L, rs. split; auto. split; auto. split; auto.
  pose proof (links_run_nodup ops [] L (NoDup_nil _) A) as N1.
  pose proof (links_nodup l Hs) as N2.
  assert (length L <= length (links l)) by (apply NoDup_incl_length; auto; intros p; apply C).
  assert (length (links l) <= length L) by (apply NoDup_incl_length; auto; intros p; apply C).
  unfold links in *. rewrite map_length in *. lia.
Qed.

Lemma fwd_entries_single : forall ns t, (forall d hs, In (d, hs) t -> exists h, hs = [h]) ->
  exists f, fwd_entries ns t = Ok f.
Proof.
  induction t as [|[d hs] t IH]; intros H; cbn [fwd_entries]; [eauto|].
  destruct (H d hs) as (h & ->); [now left|]. cbn [nhop_fds].
  destruct IH as (f & ->). { intros d' hs' Hi. apply (H d'). now right. }
  destruct (nbr_to_fd ns h); cbn; eauto.
Qed.

Lemma calculate_total : forall ovf l, linv l -> policy l = ROUTING_SIMPLE -> small (links (db l)) ->
  exists l', calculate_pff ovf l = Ok l'.
Proof.
  intros ovf l [A B C] P Sm. unfold calculate_pff. rewrite P.
  destruct (built_length _ _ A C) as (ops & L & rs & E1 & E2 & E3 & E4).
  destruct (simple_routes_shortest ovf ops L (own l) E1) as (rs' & g' & E5 & R).
  { unfold small in *. unfold links in Sm. rewrite map_length in Sm. rewrite E4. exact Sm. }
  assert (g' = gr l) by congruence. subst g'.
  destruct (graph_routing_table ovf (gr l) ROUTING_SIMPLE (own l)) as [t| |]; [|eauto|contradiction].
  destruct R as (_ & _ & R). destruct (fwd_entries_single (nbs l) t) as (f & ->); [|cbn; eauto].
  intros d hs Hi. destruct (R d hs Hi) as (h & n & E & _). eauto.
Qed.

Lemma add_link_total : forall ovf l s d q now, linv l -> s <> d -> policy l = ROUTING_SIMPLE ->
  (2 * Z.of_nat (S (length (db l))) + 1 < INT_MAX)%Z ->
  exists r, lsdb_add_link ovf l s d q now = Ok r.
Proof.
  intros ovf l s d q now [A B C] Hn P Sm. unfold lsdb_add_link.
  pose proof (db_put_spec s d q now (db l) A) as Pt.
  destruct (db_put s d q now (db l)) as [r db']. cbn [fst snd] in Pt.
  destruct Pt as (P1 & P2 & P3). destruct r as [r|]; [eauto|].
  destruct P3 as (P3 & P4 & P5 & P6).
  assert (Hni : ~ In (s, d) (links (db l))).
  { intros Hi. apply seq_of_in in Hi as (q0 & Hq). congruence. }
  destruct (built_announce _ _ s d C Hn Hni) as (g & Eg & Bg). rewrite Eg. cbn [graph_or rbind set_pff_modified].
  destruct (calculate_total ovf (with_mod (with_db l db' (db_len l + 1) g) true)) as (l' & ->); [|exact P| |cbn; eauto].
  - constructor; cbn; auto.
    + intros p Hp. apply P5 in Hp as [->|Hp]; auto.
    + eapply built_ext; [|exact Bg]. intros p. rewrite P5. cbn. split; intros [H|H]; auto.
  - unfold small, links. cbn. rewrite map_length, P6. exact Sm.
Qed.

Lemma step_total : forall ovf l e, linv l -> good_event (own l) e -> policy l = ROUTING_SIMPLE ->
  (2 * Z.of_nat (S (length (db l))) + 1 < INT_MAX)%Z ->
  exists l' o, ls_step ovf l e = Ok (l', o).
Proof.
  intros ovf l e I G P Sm.
  destruct e as [addr fd now|addr fd|addr fd|addr fd|fd m now|now|]; cbn [ls_step]; eauto.
  - destruct (add_link_total ovf (with_nbs l (lsdb_add_nb addr fd NB_DT (nbs l)))
      (own (with_nbs l (lsdb_add_nb addr fd NB_DT (nbs l)))) addr 0 now) as ((l2 & ok) & ->); cbn; eauto.
    now apply (linv_ext l).
  - unfold lsdb_del_link. destruct I as [A B C]. cbn [db with_nbs own gr].
    pose proof (db_del_spec (own l) addr (db l) A) as Pd. destruct (db_del (own l) addr (db l)) as [db'|]; [|cbn; eauto].
    destruct Pd as (P1 & P2 & P3 & P4 & P5 & P6 & P7).
    destruct (built_withdraw (gr l) (links (db l)) (links db') (own l) addr C P1) as (g & Eg & Bg).
    { intros p. split.
      - intros Hp. assert (p <> (own l, addr)) by (intros ->; auto). split; auto. now apply P5.
      - intros (H1 & H2). now apply P5. }
    rewrite Eg. cbn. eauto.
  - unfold recv_lsm.
    destruct (add_link_total ovf l (m_src m) (m_dst m) (m_seq m) now) as ((l2 & ok) & ->); cbn; eauto.
  - destruct (update_total l now I) as (l' & out & ->). cbn. eauto.
  - unfold recalc. destruct (modified l); [|cbn; eauto].
    destruct (calculate_total ovf (with_mod l false)) as (l' & ->); cbn; eauto.
    + now apply (linv_ext l).
    + unfold small, links. cbn [db with_mod]. rewrite map_length. lia.
Qed.

Lemma filter_length_le : forall (A : Type) (p : A -> bool) l, length (filter p l) <= length l.
Proof. induction l as [|a l IH]; cbn; auto. destruct (p a); cbn; lia. Qed.

Lemma calc_db : forall ovf l l', calculate_pff ovf l = Ok l' -> db l' = db l.
Proof. intros ovf l l' E. apply calculate_same in E. apply E. Qed.

Lemma put_length : forall s d q now l, length (snd (db_put s d q now l)) <= S (length l).
Proof.
  induction l as [|a l IH]; cbn [db_put]; [cbn; lia|].
  destruct (N.eqb (a_dst a) d && N.eqb (a_src a) s); [destruct (N.ltb (a_seq a) q); cbn; lia|].
  destruct (N.ltb d (a_dst a) || N.eqb (a_dst a) d && N.ltb s (a_src a)); [cbn; lia|].
  destruct (db_put s d q now l) as [r l'']. cbn in *. lia.
Qed.

Lemma del_length : forall s d l l', db_del s d l = Some l' -> length l' <= length l.
Proof.
  induction l as [|a l IH]; intros l' E; cbn in E; [discriminate|].
  destruct (N.eqb (a_dst a) d && N.eqb (a_src a) s); [injection E as <-; cbn; lia|].
  destruct (db_del s d l) as [l2|]; [|discriminate]. cbn in E. injection E as <-.
  specialize (IH l2 eq_refl). cbn. lia.
Qed.

Lemma add_length : forall ovf l s d q now r, lsdb_add_link ovf l s d q now = Ok r ->
  length (db (fst r)) <= S (length (db l)).
Proof.
  intros ovf l s d q now r E. unfold lsdb_add_link in E. pose proof (put_length s d q now (db l)) as H.
  destruct (db_put s d q now (db l)) as [[b|] db']; cbn [snd] in H.
  - assert (r = (with_db l db' (db_len l) (gr l), b)) as -> by congruence. exact H.
  - destruct (graph_or (gr l) (graph_update_edge (gr l) s d)) as [g| |]; cbn [rbind] in E; try discriminate.
    destruct (set_pff_modified ovf (with_db l db' (db_len l + 1) g) true) as [l2| |] eqn:E2; cbn in E; try discriminate.
    assert (r = (l2, true)) as -> by congruence. cbn [fst].
    unfold set_pff_modified in E2. apply calc_db in E2. rewrite E2. exact H.
Qed.

Lemma step_length : forall ovf l e l' o, linv l -> ls_step ovf l e = Ok (l', o) ->
  length (db l') <= S (length (db l)).
Proof.
  intros ovf l e l' o I E.
  destruct e as [addr fd now|addr fd|addr fd|addr fd|fd m now|now|]; cbn [ls_step] in E.
  - destruct (lsdb_add_link ovf (with_nbs l (lsdb_add_nb addr fd NB_DT (nbs l)))
                (own (with_nbs l (lsdb_add_nb addr fd NB_DT (nbs l)))) addr 0 now) as [[l2 ok]| |] eqn:Ea;
      cbn in E; try discriminate.
    assert (l' = l2) as -> by congruence. apply add_length in Ea. exact Ea.
  - destruct (lsdb_del_link ovf (with_nbs l (lsdb_del_nb addr fd (nbs l)))
                (own (with_nbs l (lsdb_del_nb addr fd (nbs l)))) addr) as [l2| |] eqn:Ea; cbn in E; try discriminate.
    assert (l' = l2) as -> by congruence. unfold lsdb_del_link in Ea. cbn [db with_nbs own gr] in Ea.
    destruct (db_del (own l) addr (db l)) as [db'|] eqn:Ed.
    + apply del_length in Ed. destruct (graph_or (gr l) (graph_del_edge (gr l) (own l) addr)) as [g| |]; cbn [rbind] in Ea; try discriminate.
      apply set_mod_same in Ea. subst l2. cbn. lia.
    + assert (l2 = with_nbs l (lsdb_del_nb addr fd (nbs l))) as -> by congruence. cbn. lia.
  - match type of E with Ok (?x, _) = _ => assert (l' = x) as -> by congruence end. cbn. lia.
  - match type of E with Ok (?x, _) = _ => assert (l' = x) as -> by congruence end. cbn. lia.
  - unfold recv_lsm in E.
    destruct (lsdb_add_link ovf l (m_src m) (m_dst m) (m_seq m) now) as [[l2 ok]| |] eqn:Ea; cbn in E; try discriminate.
    assert (l' = l2) as -> by congruence. apply add_length in Ea. exact Ea.
  - destruct (lsupdate l now) as [[l2 out]| |] eqn:Ea; cbn in E; try discriminate.
    assert (l' = l2) as -> by congruence. apply update_spec in Ea; auto.
    destruct Ea as (_ & _ & _ & _ & _ & _ & _ & -> & _). unfold kept. rewrite map_length.
    pose proof (filter_length_le _ (fun a => negb (expired now a)) (db l)). lia.
  - destruct (recalc ovf l) as [l2| |] eqn:Ea; cbn in E; try discriminate.
    assert (l' = l2) as -> by congruence. unfold recalc in Ea. destruct (modified l).
    + apply calc_db in Ea. rewrite Ea. cbn. lia.
    + assert (l2 = l) as -> by congruence. lia.
Qed.

Lemma run_total : forall ovf es l, linv l -> Forall (good_event (own l)) es -> policy l = ROUTING_SIMPLE ->
  (2 * Z.of_nat (length (db l) + length es) + 1 < INT_MAX)%Z ->
  exists l' os, ls_run ovf l es = Ok (l', os) /\ length (db l') <= length (db l) + length es.
Proof.
  intros ovf es. induction es as [|e es IH]; intros l I F P Sm; cbn [ls_run].
  - exists l, []. split; [reflexivity | lia].
  - cbn [length] in Sm. destruct (step_total ovf l e I (Forall_inv F) P) as (l1 & o & E1); [lia|].
    pose proof (step_length ovf l e l1 o I E1) as Hl.
    destruct (step_linv ovf l e l1 o I (Forall_inv F) E1) as (I1 & O1 & P1).
    destruct (IH l1) as (l' & os & E2 & H2); auto.
    + rewrite O1. now apply Forall_inv_tail in F.
    + congruence.
    + lia.
    + rewrite E1. cbn. rewrite E2. cbn. exists l', (o :: os). split; [reflexivity | cbn; lia].
Qed.

(* ---- Reception ---- *)

(* A message that would be accepted. *)
Definition fresh (l : ls) (m : lsm) : bool :=
  match seq_of (db l) (m_src m) (m_dst m) with
  | None => true
  | Some q => N.ltb q (m_seq m)
  end.

Lemma recv_spec : forall ovf l fd m now l' ok out, linv l -> m_src m <> m_dst m ->
  ls_step ovf l (Recv fd m now) = Ok (l', (ok, out)) ->
  linv l' /\ own l' = own l /\ policy l' = policy l /\ nbs l' = nbs l /\ ok = fresh l m /\
  (forall x y, (x, y) <> (m_src m, m_dst m) -> seq_of (db l') x y = seq_of (db l) x y) /\
  if ok then seq_of (db l') (m_src m) (m_dst m) = Some (m_seq m) /\ out = forward_lsm (nbs l) fd m
  else l' = l /\ out = [] /\
       exists q0, seq_of (db l) (m_src m) (m_dst m) = Some q0 /\ (m_seq m <= q0)%N.
Proof.
  intros ovf l fd m now l' ok out I Hn E. cbn [ls_step] in E. unfold recv_lsm in E.
  destruct (lsdb_add_link ovf l (m_src m) (m_dst m) (m_seq m) now) as [[l2 ok2]| |] eqn:Ea; cbn in E; try discriminate.
  assert (l' = l2) as -> by congruence. assert (ok = ok2) as -> by congruence.
  assert (out = if ok2 then forward_lsm (nbs l2) fd m else []) as -> by congruence.
  apply add_link_spec in Ea; auto. destruct Ea as (H1 & H2 & H3 & H4 & H5 & H6).
  split; [assumption|]. split; [assumption|]. split; [assumption|]. split; [assumption|].
  rewrite H4. unfold fresh. destruct ok2.
  - destruct H6 as (H6 & H7). split; [|auto].
    destruct (seq_of (db l) (m_src m) (m_dst m)) as [q0|]; auto. symmetry. apply N.ltb_lt. auto.
  - destruct H6 as (-> & q0 & H6 & H7). rewrite H6. split; [|eauto 6].
    symmetry. apply N.ltb_ge. assumption.
Qed.

Lemma fresh_mono : forall ovf l fd m now l' ok out m', linv l -> m_src m <> m_dst m ->
  ls_step ovf l (Recv fd m now) = Ok (l', (ok, out)) -> fresh l' m' = true -> fresh l m' = true.
Proof.
  intros ovf l fd m now l' ok out m' I Hn E Hf. apply recv_spec in E; auto.
  destruct E as (_ & _ & _ & _ & Eok & Ho & E). unfold fresh in *.
  destruct (N.eq_dec (m_src m') (m_src m)) as [E1|E1];
    [destruct (N.eq_dec (m_dst m') (m_dst m)) as [E2|E2]|]; try (rewrite Ho in Hf by congruence; exact Hf).
  rewrite E1, E2 in *. destruct ok.
  - destruct E as (E & _). rewrite E in Hf.
    destruct (seq_of (db l) (m_src m) (m_dst m)) as [q0|]; auto. symmetry in Eok.
    apply N.ltb_lt in Eok, Hf. apply N.ltb_lt. lia.
  - destruct E as (-> & _). exact Hf.
Qed.

Lemma fresh_gone : forall ovf l fd m now l' out, linv l -> m_src m <> m_dst m ->
  ls_step ovf l (Recv fd m now) = Ok (l', (true, out)) -> fresh l m = true /\ fresh l' m = false.
Proof.
  intros ovf l fd m now l' out I Hn E. apply recv_spec in E; auto.
  destruct E as (_ & _ & _ & _ & Eok & _ & (E & _)). split; [auto|]. unfold fresh. rewrite E. apply N.ltb_irrefl.
Qed.

(* ---- Flooding terminates ---- *)

Section Flood.

  Variable ovf : overflow.
  Variable peer : N -> N -> option (N * N).

  Inductive deliveries : net -> nat -> net -> Prop :=
  | del_nil : forall n, deliveries n 0 n
  | del_cons : forall n x m ok n1 k n2,
      net_deliver ovf peer n x m ok n1 -> deliveries n1 k n2 -> deliveries n (S k) n2.

  Definition degree (l : ls) : nat := length (mgmt_fds (nbs l)).

  Fixpoint total (f : N -> nat) (ns : list N) : nat :=
    match ns with [] => 0 | x :: ns' => f x + total f ns' end.

  Definition waiting (M : list lsm) (l : ls) : nat := length (filter (fresh l) M).

  Definition energy (ns : list N) (M : list lsm) (n : net) : nat :=
    length (flying n) + total (fun x => degree (nodes n x) * waiting M (nodes n x)) ns.

  Definition proper (ns : list N) (M : list lsm) (n : net) : Prop :=
    (forall x, linv (nodes n x)) /\
    (forall f, In f (flying n) -> m_src (msg f) <> m_dst (msg f) /\ In (msg f) M /\ In (to_node f) ns).

  Lemma total_ext : forall f g ns, (forall x, In x ns -> f x = g x) -> total f ns = total g ns.
  Proof. induction ns as [|x ns IH]; intros H; cbn; auto. rewrite H by now left. rewrite IH; auto. intros; apply H; now right. Qed.

  Lemma total_change : forall f g x ns, NoDup ns -> In x ns -> (forall y, y <> x -> f y = g y) ->
    total f ns + g x = total g ns + f x.
  Proof.
    induction ns as [|y ns IH]; intros Nd Hi H; [contradiction|].
    apply NoDup_cons_iff in Nd as (Ny & Nd). cbn [total].
    destruct Hi as [Hi|Hi].
    - subst y. rewrite (total_ext f g ns); [lia|]. intros z Hz. apply H. intros ->. contradiction.
    - specialize (IH Nd Hi H). rewrite (H y); [lia|]. intros ->. contradiction.
  Qed.

  Lemma wire_length : forall x out, length (wire peer x out) <= length out.
  Proof.
    unfold wire. induction out as [|p out IH]; cbn; auto. rewrite app_length.
    destruct (peer x (fst p)) as [[y fd]|]; cbn; lia.
  Qed.

  Lemma forward_length : forall ns fd m, length (forward_lsm ns fd m) <= length (mgmt_fds ns).
  Proof. intros. unfold forward_lsm. rewrite map_length. apply filter_length_le. Qed.

  Lemma filter_weaker : forall (p q : lsm -> bool) M, (forall m, p m = true -> q m = true) ->
    length (filter p M) <= length (filter q M).
  Proof.
    induction M as [|m M IH]; intros H; cbn; auto. specialize (IH H).
    destruct (p m) eqn:E; [rewrite (H m E); cbn; lia|]. destruct (q m); cbn; lia.
  Qed.

  Lemma filter_strict : forall (p q : lsm -> bool) M m, (forall m, p m = true -> q m = true) ->
    In m M -> p m = false -> q m = true -> length (filter p M) < length (filter q M).
  Proof.
    induction M as [|a M IH]; intros m H Hi Hp Hq; [contradiction|]. cbn.
    destruct Hi as [->|Hi].
    - rewrite Hp, Hq. cbn. pose proof (filter_weaker p q M H). lia.
    - specialize (IH m H Hi Hp Hq). destruct (p a) eqn:E; [rewrite (H a E); cbn; lia|].
      destruct (q a); cbn; lia.
  Qed.

  Lemma deliver_energy : forall ns M n x m ok n', NoDup ns ->
    (forall a fd y fd', peer a fd = Some (y, fd') -> In y ns) ->
    proper ns M n -> net_deliver ovf peer n x m ok n' ->
    proper ns M n' /\ S (energy ns M n') <= energy ns M n.
  Proof.
    intros ns M n x m ok n' Nd Pn (PI & PF) D. destruct D as [fd now a b l out Ef Es].
    destruct (PF (Flight x fd m)) as (Hm & HM & Hx). { rewrite Ef. apply in_or_app. right. now left. }
    cbn in Hm, HM, Hx.
    pose proof (recv_spec ovf _ fd m now l ok out (PI x) Hm Es) as R.
    destruct R as (I' & _ & _ & En & Eok & _ & R).
    split.
    - split.
      + intros y. cbn. unfold set_node. destruct (N.eqb y x); auto.
      + cbn. intros f Hf. rewrite !in_app_iff in Hf. destruct Hf as [Hf|[Hf|Hf]].
        * apply PF. rewrite Ef. apply in_or_app. auto.
        * apply PF. rewrite Ef. apply in_or_app. right. now right.
        * unfold wire in Hf. apply in_flat_map in Hf as ((fd2 & m2) & Hp & Hf).
          assert (m2 = m).
          { destruct ok; [|destruct R as (_ & -> & _); contradiction].
            destruct R as (_ & ->). unfold forward_lsm in Hp. apply in_map_iff in Hp as (z & Ez & _). congruence. }
          subst m2. cbn in Hf. destruct (peer x fd2) as [[y fd3]|] eqn:Ep; [|contradiction].
          destruct Hf as [<-|[]]. cbn. split; auto. split; auto. eapply Pn; eauto.
    - unfold energy. cbn [flying nodes]. rewrite Ef, !app_length. cbn [length].
      pose proof (total_change
        (fun y => degree (set_node n x l y) * waiting M (set_node n x l y))
        (fun y => degree (nodes n y) * waiting M (nodes n y)) x ns Nd Hx) as T.
      cbn beta in T. unfold set_node in T at 3 4. unfold set_node in *. rewrite N.eqb_refl in T.
      specialize (T (fun y Hy => ltac:(cbn; destruct (N.eqb_spec y x); [contradiction | reflexivity]))).
      assert (Ed : degree l = degree (nodes n x)) by (unfold degree; now rewrite En).
      pose proof (wire_length x out) as Wl.
      destruct ok.
      + destruct R as (_ & ->). pose proof (forward_length (nbs (nodes n x)) fd m) as Fl.
        destruct (fresh_gone ovf _ fd m now l _ (PI x) Hm Es) as (F1 & F2).
        assert (Wt : waiting M l < waiting M (nodes n x)).
        { unfold waiting. apply (filter_strict _ _ M m); auto.
          intros m' Hm'. eapply fresh_mono; eauto. }
        fold (degree (nodes n x)) in Fl. rewrite Ed in T.
        set (D := degree (nodes n x)) in *. set (W := waiting M l) in *. set (W' := waiting M (nodes n x)) in *.
        assert (D * S W <= D * W') by (apply Nat.mul_le_mono_l; lia).
        rewrite Nat.mul_succ_r in H. lia.
      + destruct R as (-> & -> & _). cbn [wire flat_map length] in *. lia.
  Qed.

  Lemma deliveries_energy : forall ns M n k n', NoDup ns ->
    (forall a fd y fd', peer a fd = Some (y, fd') -> In y ns) ->
    proper ns M n -> deliveries n k n' -> k + energy ns M n' <= energy ns M n.
  Proof.
    intros ns M n k n' Nd Pn P D. induction D as [|n x m ok n1 k n2 D1 D2 IH]; [lia|].
    destruct (deliver_energy ns M n x m ok n1 Nd Pn P D1) as (P1 & E1). specialize (IH P1). lia.
  Qed.

  Lemma energy_bound : forall ns M n,
    energy ns M n <= length (flying n) + length M * total (fun x => degree (nodes n x)) ns.
  Proof.
    intros ns M n. unfold energy. apply Nat.add_le_mono_l. induction ns as [|x ns IH]; cbn; [lia|].
    assert (waiting M (nodes n x) <= length M) by apply filter_length_le.
    rewrite Nat.mul_add_distr_l.
    assert (degree (nodes n x) * waiting M (nodes n x) <= length M * degree (nodes n x)).
    { rewrite (Nat.mul_comm (length M)). now apply Nat.mul_le_mono_l. }
    lia.
  Qed.

End Flood.
