(* Proofs about the forwarding table, about histories of one link and
   about forwarding between nodes that know the same links. *)

From Coq Require Import NArith ZArith List Bool Lia Sorted Arith.
From Coq Require Import ZifyBool ZifyNat ZifyN.
From Verif Require Import GraphModel GraphSpec GraphProofs GraphProofs2 GraphProofs3 GraphProofs4
  GraphProofs5 GraphProofs6 GraphProps LsModel LsSpec LsProofs LsProofs2 LsProofs3 LsProofs4.
Import ListNotations.

(* ---- Neighbours ---- *)

Definition nb_lt (a b : nb) : Prop :=
  (n_addr b <= n_addr a)%N /\ ~ (n_addr a = n_addr b /\ n_type a = n_type b).

Lemma nbt_eqb_iff : forall a b, nbt_eqb a b = true <-> a = b.
Proof. intros [] []; cbn; split; congruence. Qed.

Lemma add_nb_sorted : forall addr fd ty l, StronglySorted nb_lt l ->
  StronglySorted nb_lt (lsdb_add_nb addr fd ty l).
Proof.
  intros addr fd ty l Hs. induction Hs as [|a l Hs IH Hf]; cbn [lsdb_add_nb]; [repeat constructor|].
  destruct (N.eqb (n_addr a) addr && nbt_eqb (n_type a) ty) eqn:E.
  - apply andb_true_iff in E as (E1 & E2). apply N.eqb_eq in E1. apply nbt_eqb_iff in E2. constructor; auto.
    rewrite Forall_forall in *. intros b Hb. specialize (Hf b Hb). unfold nb_lt in *. cbn. now rewrite <- E1, <- E2.
  - destruct (N.ltb_spec (n_addr a) addr) as [L|L].
    + constructor; [now constructor|]. constructor.
      * unfold nb_lt. cbn. lia.
      * rewrite Forall_forall in *. intros b Hb. specialize (Hf b Hb). unfold nb_lt in *. cbn. lia.
    + constructor; auto. rewrite Forall_forall in *. intros b Hb. apply in_add_nb in Hb as [->|Hb]; auto.
      unfold nb_lt. cbn. split; auto. intros (E1 & E2). rewrite E1, N.eqb_refl in E. cbn in E.
      apply nbt_eqb_iff in E2. congruence.
Qed.

Lemma del_nb_sorted : forall addr fd l, StronglySorted nb_lt l -> StronglySorted nb_lt (lsdb_del_nb addr fd l).
Proof.
  intros addr fd l Hs. induction Hs as [|a l Hs IH Hf]; cbn [lsdb_del_nb]; [constructor|].
  destruct (N.eqb (n_addr a) addr && N.eqb (n_fd a) fd); auto. constructor; auto.
  rewrite Forall_forall in *. intros b Hb. apply in_del_nb in Hb. auto.
Qed.

Lemma nbr_to_fd_iff : forall l h fd, StronglySorted nb_lt l ->
  nbr_to_fd l h = Some fd <-> In (Nb h fd NB_DT) l.
Proof.
  intros l h fd Hs. split; [apply nbr_to_fd_in|]. induction Hs as [|a l Hs IH Hf]; intros Hi; [contradiction|].
  cbn [nbr_to_fd]. destruct Hi as [->|Hi].
  - cbn. now rewrite N.eqb_refl.
  - destruct (N.eqb (n_addr a) h && nbt_eqb (n_type a) NB_DT) eqn:E; auto.
    apply andb_true_iff in E as (E1 & E2). apply N.eqb_eq in E1. apply nbt_eqb_iff in E2.
    rewrite Forall_forall in Hf. specialize (Hf _ Hi). unfold nb_lt in Hf. cbn in Hf. tauto.
Qed.

Lemma add_nbs : forall ovf l s d q now l' ok, lsdb_add_link ovf l s d q now = Ok (l', ok) -> nbs l' = nbs l.
Proof.
  intros ovf l s d q now l' ok E. unfold lsdb_add_link in E.
  destruct (db_put s d q now (db l)) as [[b|] db'].
  - assert (l' = with_db l db' (db_len l) (gr l)) as -> by congruence. reflexivity.
  - destruct (graph_or (gr l) (graph_update_edge (gr l) s d)) as [g| |]; cbn [rbind] in E; try discriminate.
    destruct (set_pff_modified ovf (with_db l db' (db_len l + 1) g) true) as [l2| |] eqn:E2; cbn in E; try discriminate.
    assert (l' = l2) as -> by congruence. unfold set_pff_modified in E2. apply calculate_same in E2. now destruct E2 as (_ & _ & -> & _).
Qed.

Lemma step_nbs : forall ovf l e l' o, ls_step ovf l e = Ok (l', o) ->
  StronglySorted nb_lt (nbs l) -> StronglySorted nb_lt (nbs l').
Proof.
  intros ovf l e l' o E Hs.
  destruct e as [addr fd now|addr fd|addr fd|addr fd|fd m now|now|]; cbn [ls_step] in E; cbn zeta in E.
  - destruct (lsdb_add_link ovf (with_nbs l (lsdb_add_nb addr fd NB_DT (nbs l)))
                (own (with_nbs l (lsdb_add_nb addr fd NB_DT (nbs l)))) addr 0 now) as [[l2 ok]| |] eqn:Ea;
      cbn in E; try discriminate.
    assert (l' = l2) as -> by congruence. apply add_nbs in Ea. rewrite Ea. cbn. now apply add_nb_sorted.
  - destruct (lsdb_del_link ovf (with_nbs l (lsdb_del_nb addr fd (nbs l)))
                (own (with_nbs l (lsdb_del_nb addr fd (nbs l)))) addr) as [l2| |] eqn:Ea;
      cbn in E; try discriminate.
    assert (l' = l2) as -> by congruence. unfold lsdb_del_link in Ea.
    destruct (db_del _ addr _) as [db'|].
    + destruct (graph_or _ _) as [g| |]; cbn [rbind] in Ea; try discriminate.
      apply set_mod_same in Ea. subst l2. cbn. now apply del_nb_sorted.
    + match type of Ea with Ok ?x = _ => assert (l2 = x) as -> by congruence end. cbn. now apply del_nb_sorted.
  - match type of E with Ok (?x, _) = _ => assert (l' = x) as -> by congruence end. cbn. now apply add_nb_sorted.
  - match type of E with Ok (?x, _) = _ => assert (l' = x) as -> by congruence end. cbn. now apply del_nb_sorted.
  - unfold recv_lsm in E.
    destruct (lsdb_add_link ovf l (m_src m) (m_dst m) (m_seq m) now) as [[l2 ok2]| |] eqn:Ea; cbn in E; try discriminate.
    assert (l' = l2) as -> by congruence. apply add_nbs in Ea. now rewrite Ea.
  - unfold lsupdate in E. destruct (update_loop (own l) now (nbs l) (gr l) (db l)) as [[[d g] out]| |];
      cbn in E; try discriminate.
    match type of E with Ok (?x, _) = _ => assert (l' = x) as -> by congruence end. exact Hs.
  - destruct (recalc ovf l) as [l2| |] eqn:Ea; cbn in E; try discriminate.
    assert (l' = l2) as -> by congruence. unfold recalc in Ea. destruct (modified l).
    + apply calculate_same in Ea. now destruct Ea as (_ & _ & -> & _).
    + assert (l2 = l) as -> by congruence. exact Hs.
Qed.

Lemma run_nbs : forall ovf es l l' os, ls_run ovf l es = Ok (l', os) ->
  StronglySorted nb_lt (nbs l) -> StronglySorted nb_lt (nbs l').
Proof.
  intros ovf es. induction es as [|e es IH]; intros l l' os E Hs; cbn in E.
  - assert (l' = l) as -> by congruence. auto.
  - destruct (ls_step ovf l e) as [[l1 o]| |] eqn:E1; cbn in E; try discriminate.
    destruct (ls_run ovf l1 es) as [[l2 os2]| |] eqn:E2; cbn in E; try discriminate.
    assert (l' = l2) as -> by congruence. eapply IH; eauto. eapply step_nbs; eauto.
Qed.

(* ---- The table after a calculation ---- *)

Lemma built_table : forall ovf g S s, built g S -> small S -> NoDup S ->
  match graph_routing_table ovf g ROUTING_SIMPLE s with
  | Ok t => shortest_table S s t
  | Err => S = []
  | UB => False
  end.
Proof.
  intros ovf g S s (ops & L & rs & E1 & E2 & E3) Sm Nd.
  pose proof (links_run_nodup ops [] L (NoDup_nil _) E1) as NdL.
  assert (EL : length L = length S).
  { assert (length L <= length S) by (apply NoDup_incl_length; auto; intros p; apply E3).
    assert (length S <= length L) by (apply NoDup_incl_length; auto; intros p; apply E3). lia. }
  destruct (simple_routes_shortest ovf ops L s E1) as (rs' & g' & E5 & R).
  { unfold small in *. rewrite EL. exact Sm. }
  assert (g' = g) by congruence. subst g'.
  destruct (links_shows ops L E1) as (rs2 & g2 & E6 & _ & Sh).
  assert (g2 = g) by congruence. subst g2.
  pose proof (usable_same S L E3) as U.
  destruct (graph_routing_table ovf g ROUTING_SIMPLE s) as [t| |] eqn:Et; [| |contradiction].
  - destruct R as (R1 & R2 & R3). split; auto. split.
    + intros d. rewrite R2. now rewrite (reachable_ext _ _ U).
    + intros d hs Hi. destruct (R3 d hs Hi) as (h & n & -> & A & B & C). exists h, n.
      split; auto. split; [now apply U|]. now rewrite <- !(distance_ext _ _ U).
  - cbn in Et. pose proof (simple_ok g (s_ginv _ _ Sh)) as So.
    assert (B : (Z.of_nat (length (gvs g)) + 1 < INT_MAX)%Z).
    { apply (shows_bound g L Sh). unfold small in *. rewrite EL. exact Sm. }
    unfold routing_table_simple in Et. pose proof (s_ginv _ _ Sh) as (W & I). rewrite (p_nr g W) in Et.
    destruct (Z.ltb_spec (Z.of_nat (length (gvs g))) 2) as [Lt|Lt].
    + destruct S as [|(a, b) S']; auto. exfalso.
      assert (Hi : In (a, b) L) by (apply E3; now left).
      assert (Hab : a <> b). { intros ->. now apply (s_irr _ _ Sh b). }
      destruct (proj2 (shows_node g L Sh a)) as (v & Hv & Hva); [eauto|].
      destruct (proj2 (shows_node g L Sh b)) as (w & Hw & Hwa); [eauto|].
      destruct (gvs g) as [|x [|y l]]; cbn in *; [contradiction | | lia].
      destruct Hv as [->|[]], Hw as [->|[]]. congruence.
    + specialize (So B s). unfold routing_table_simple in So. rewrite (p_nr g W) in So.
      destruct (Z.ltb_spec (Z.of_nat (length (gvs g))) 2) as [Lt'|_]; [lia|].
      destruct (dijkstra_ok g W B s) as (dist & nhops & Ed & _). rewrite Ed in Et, So. cbn [rbind] in Et, So.
      destruct (table_loop g nhops 0 (gvs g) []) as [t| |] eqn:El; cbn [rbind] in Et, So; try discriminate; try contradiction.
      exfalso. clear - El. revert El. generalize (@nil (N * list N)) as acc. generalize 0%Z as i.
      induction (gvs g) as [|v vs IH]; intros i acc El; cbn [table_loop] in El; [discriminate|].
      unfold aget in El. destruct (Z.ltb i 0); cbn [rbind] in El; [discriminate|].
      destruct (nth_error nhops (Z.to_nat i)) as [[id|]|]; cbn [lift rbind] in El; try discriminate; eauto.
      destruct (deref g id); cbn [lift rbind] in El; [eauto|discriminate].
Qed.

Lemma fwd_entries_keys : forall ns t f, fwd_entries ns t = Ok f -> NoDup (map fst t) -> NoDup (map fst f).
Proof.
  assert (Sub : forall ns t f, fwd_entries ns t = Ok f -> forall d, In d (map fst f) -> In d (map fst t)).
  { induction t as [|[d0 hs0] t IH]; intros f E d Hd; cbn [fwd_entries] in E.
    - assert (f = []) as -> by congruence. exact Hd.
    - destruct (nhop_fds ns 0 hs0) as [fds| |]; cbn [rbind] in E; try discriminate.
      destruct (fwd_entries ns t) as [f1| |] eqn:E1; cbn [rbind] in E; try discriminate.
      destruct fds as [|fd fds].
      + assert (f = f1) as -> by congruence. right. eauto.
      + assert (f = (d0, fd :: fds) :: f1) as -> by congruence. destruct Hd as [Hd|Hd]; [now left | right; eauto]. }
  induction t as [|[d0 hs0] t IH]; intros f E Nd; cbn [fwd_entries] in E.
  - assert (f = []) as -> by congruence. constructor.
  - cbn in Nd. apply NoDup_cons_iff in Nd as (N1 & N2).
    destruct (nhop_fds ns 0 hs0) as [fds| |]; cbn [rbind] in E; try discriminate.
    destruct (fwd_entries ns t) as [f1| |] eqn:E1; cbn [rbind] in E; try discriminate.
    specialize (IH f1 eq_refl N2). destruct fds as [|fd fds].
    + assert (f = f1) as -> by congruence. exact IH.
    + assert (f = (d0, fd :: fds) :: f1) as -> by congruence. cbn. constructor; auto.
      intros Hi. apply N1. eapply Sub; eauto.
Qed.

(* fwd holds, for each destination, the flow to the next hop of t. *)
Definition fwd_for (t : list (N * list N)) (ns : list nb) (f : list (N * list N)) : Prop :=
  NoDup (map fst f) /\
  forall d fds, In (d, fds) f <-> exists h fd, In (d, [h]) t /\ In (Nb h fd NB_DT) ns /\ fds = [fd].

Lemma calc_fwd : forall ovf l l', linv l -> policy l = ROUTING_SIMPLE -> small (links (db l)) ->
  StronglySorted nb_lt (nbs l) -> db l <> [] -> calculate_pff ovf l = Ok l' ->
  exists t, shortest_table (links (db l)) (own l) t /\ fwd_for t (nbs l) (fwd l').
Proof.
  intros ovf l l' [A B C] P Sm Hs Hne E. unfold calculate_pff in E. rewrite P in E.
  pose proof (built_table ovf (gr l) (links (db l)) (own l) C Sm (links_nodup _ A)) as R.
  destruct (graph_routing_table ovf (gr l) ROUTING_SIMPLE (own l)) as [t| |]; [| |contradiction].
  - destruct (fwd_entries (nbs l) t) as [f| |] eqn:Ef; cbn in E; try discriminate.
    assert (l' = with_fwd l f) as -> by congruence. exists t. split; auto. cbn [fwd with_fwd].
    split; [eapply fwd_entries_keys; eauto; apply R|].
    intros d fds. rewrite (fwd_entries_in (nbs l) t f); auto.
    + split; intros (h & fd & H1 & H2 & H3); exists h, fd; (split; auto); (split; auto); now apply nbr_to_fd_iff.
    + intros d' hs Hi. destruct R as (_ & _ & R). destruct (R d' hs Hi) as (h & n & -> & _). eauto.
  - destruct (db l); [contradiction | discriminate].
Qed.

Lemma step_fwd : forall ovf l e l' o, linv l -> good_event (own l) e -> policy l = ROUTING_SIMPLE ->
  StronglySorted nb_lt (nbs l) -> ls_step ovf l e = Ok (l', o) -> small (links (db l')) ->
  (e = Recalc /\ modified l = true /\ db l <> []) \/
  (exists p, In p (links (db l')) /\ ~ In p (links (db l))) ->
  exists t, shortest_table (links (db l')) (own l') t /\ fwd_for t (nbs l') (fwd l').
Proof.
  intros ovf l e l' o I G P Hs E Sm H.
  assert (Add : forall l0 s d q now ok, linv l0 -> s <> d -> policy l0 = ROUTING_SIMPLE ->
    StronglySorted nb_lt (nbs l0) -> lsdb_add_link ovf l0 s d q now = Ok (l', ok) -> db l0 = db l ->
    (exists p, In p (links (db l')) /\ ~ In p (links (db l))) ->
    exists t, shortest_table (links (db l')) (own l') t /\ fwd_for t (nbs l') (fwd l')).
  { intros l0 s d q now ok I0 Hsd P0 Hs0 Ea Ed (p & Hp1 & Hp2).
    pose proof (add_link_spec ovf l0 s d q now l' ok I0 Hsd Ea) as (I' & Eo' & Ep' & En' & Eq' & Eok).
    unfold lsdb_add_link in Ea. pose proof (db_put_spec s d q now (db l0) (l_sorted _ I0)) as Pt.
    destruct (db_put s d q now (db l0)) as [[b|] db'] eqn:Eput.
    - exfalso. assert (l' = with_db l0 db' (db_len l0) (gr l0)) as -> by congruence. cbn [db with_db] in *.
      apply Hp2. destruct p as (x, y). apply seq_of_in in Hp1 as (q1 & Hq1). apply seq_of_in.
      destruct Pt as (_ & Pt1 & Pt2). cbn [fst snd] in *. rewrite <- Ed.
      destruct (N.eq_dec x s) as [Ex|Ex]; [destruct (N.eq_dec y d) as [Ey|Ey]|].
      + subst x y. destruct b; destruct Pt2 as ((q0 & Pt2 & _) & _); eauto.
      + rewrite Pt1 in Hq1 by congruence. eauto.
      + rewrite Pt1 in Hq1 by congruence. eauto.
    - destruct (graph_or (gr l0) (graph_update_edge (gr l0) s d)) as [g| |]; cbn [rbind] in Ea; try discriminate.
      destruct (set_pff_modified ovf (with_db l0 db' (db_len l0 + 1) g) true) as [l2| |] eqn:E2; cbn in Ea; try discriminate.
      assert (l' = l2) by congruence. subst l2. unfold set_pff_modified in E2.
      pose proof (calculate_same _ _ _ E2) as (S1 & S2 & S3 & S4 & S5 & S6 & S7).
      cbn [own policy nbs db gr with_mod with_db] in S1, S2, S3, S4, S6.
      assert (Il : linv (with_mod (with_db l0 db' (db_len l0 + 1) g) true)).
      { apply (linv_ext l'); auto. }
      apply calc_fwd in E2; auto.
      + cbn [own nbs db with_mod with_db] in E2. now rewrite S1, S3, S4.
      + cbn [db with_mod with_db]. now rewrite <- S4.
      + cbn [db with_mod with_db]. rewrite <- S4. intros Hn. rewrite Hn in Hp1. contradiction. }
  destruct e as [addr fd now|addr fd|addr fd|addr fd|fd m now|now|]; cbn [ls_step good_event] in E, G; cbn zeta in E.
  - destruct H as [(H & _)|H]; [discriminate|].
    destruct (lsdb_add_link ovf (with_nbs l (lsdb_add_nb addr fd NB_DT (nbs l)))
                (own (with_nbs l (lsdb_add_nb addr fd NB_DT (nbs l)))) addr 0 now) as [[l2 ok]| |] eqn:Ea;
      cbn in E; try discriminate.
    assert (l' = l2) by congruence. subst l2. eapply (Add _ _ _ _ _ _); [| | | |exact Ea| |exact H]; auto.
    + now apply (linv_ext l).
    + cbn. now apply add_nb_sorted.
  - destruct H as [(H & _)|(p & H1 & H2)]; [discriminate|]. exfalso.
    destruct (lsdb_del_link ovf (with_nbs l (lsdb_del_nb addr fd (nbs l)))
                (own (with_nbs l (lsdb_del_nb addr fd (nbs l)))) addr) as [l2| |] eqn:Ea;
      cbn in E; try discriminate.
    assert (l' = l2) by congruence. subst l2. apply del_link_spec in Ea; [|now apply (linv_ext l)].
    destruct Ea as (_ & _ & _ & _ & Ea & Eb). apply H2. destruct p as (x, y).
    apply seq_of_in in H1 as (q1 & H1). apply seq_of_in. cbn [db with_nbs own] in Ea, Eb.
    destruct (N.eq_dec x (own l)) as [Ex|Ex]; [destruct (N.eq_dec y addr) as [Ey|Ey]|].
    + subst. congruence.
    + rewrite Ea in H1 by congruence. eauto.
    + rewrite Ea in H1 by congruence. eauto.
  - destruct H as [(H & _)|(p & H1 & H2)]; [discriminate|]. exfalso.
    match type of E with Ok (?x, _) = _ => assert (l' = x) as -> by congruence end. auto.
  - destruct H as [(H & _)|(p & H1 & H2)]; [discriminate|]. exfalso.
    match type of E with Ok (?x, _) = _ => assert (l' = x) as -> by congruence end. auto.
  - destruct H as [(H & _)|H]; [discriminate|]. unfold recv_lsm in E.
    destruct (lsdb_add_link ovf l (m_src m) (m_dst m) (m_seq m) now) as [[l2 ok2]| |] eqn:Ea; cbn in E; try discriminate.
    assert (l' = l2) by congruence. subst l2. eapply (Add _ _ _ _ _ _); [| | | |exact Ea| |exact H]; auto.
  - destruct H as [(H & _)|(p & H1 & H2)]; [discriminate|]. exfalso.
    destruct (lsupdate l now) as [[l2 out]| |] eqn:Ea; cbn in E; try discriminate.
    assert (l' = l2) by congruence. subst l2. apply update_spec in Ea; auto.
    destruct Ea as (_ & _ & _ & _ & _ & _ & _ & Ed & _). rewrite Ed in H1. apply kept_links in H1. auto.
  - destruct (recalc ovf l) as [l2| |] eqn:Ea; cbn in E; try discriminate.
    assert (l' = l2) by congruence. subst l2. unfold recalc in Ea. destruct (modified l) eqn:M.
    + pose proof (calculate_same _ _ _ Ea) as (S1 & S2 & S3 & S4 & S5 & S6 & S7).
      cbn [own policy nbs db gr with_mod] in S1, S2, S3, S4, S6.
      apply calc_fwd in Ea; auto.
      * cbn [own nbs db with_mod] in Ea. now rewrite S1, S3, S4.
      * now apply (linv_ext l).
      * cbn [db with_mod]. now rewrite <- S4.
      * cbn [db with_mod]. destruct H as [(_ & _ & H)|(p & H1 & H2)]; auto.
        rewrite S4 in H1. contradiction.
    + assert (l' = l) as -> by congruence. destruct H as [(_ & H & _)|(p & H1 & H2)]; [discriminate | contradiction].
Qed.

(* ---- A link that stays known ---- *)

Lemma step_seq : forall ovf l e l' o s d q q', linv l -> good_event (own l) e -> s <> own l ->
  ls_step ovf l e = Ok (l', o) -> seq_of (db l) s d = Some q -> seq_of (db l') s d = Some q' -> (q <= q')%N.
Proof.
  intros ovf l e l' o s d q q' I G Hs E Eq Eq'.
  assert (Same : seq_of (db l') s d = seq_of (db l) s d -> (q <= q')%N).
  { intros X. rewrite X in Eq'. assert (q = q') by congruence. lia. }
  destruct e as [addr fd now|addr fd|addr fd|addr fd|fd m now|now|]; cbn [ls_step good_event] in *; cbn zeta in E.
  - destruct (lsdb_add_link ovf (with_nbs l (lsdb_add_nb addr fd NB_DT (nbs l)))
                (own (with_nbs l (lsdb_add_nb addr fd NB_DT (nbs l)))) addr 0 now) as [[l2 ok]| |] eqn:Ea;
      cbn in E; try discriminate.
    assert (l' = l2) by congruence. subst l2. apply add_link_spec in Ea; [|now apply (linv_ext l)|cbn; congruence].
    destruct Ea as (_ & _ & _ & _ & Ea & _). apply Same. rewrite Ea; [reflexivity|]. cbn. congruence.
  - destruct (lsdb_del_link ovf (with_nbs l (lsdb_del_nb addr fd (nbs l)))
                (own (with_nbs l (lsdb_del_nb addr fd (nbs l)))) addr) as [l2| |] eqn:Ea;
      cbn in E; try discriminate.
    assert (l' = l2) by congruence. subst l2. apply del_link_spec in Ea; [|now apply (linv_ext l)].
    destruct Ea as (_ & _ & _ & _ & Ea & _). apply Same. rewrite Ea; [reflexivity|]. cbn. congruence.
  - match type of E with Ok (?x, _) = _ => assert (l' = x) as -> by congruence end. auto.
  - match type of E with Ok (?x, _) = _ => assert (l' = x) as -> by congruence end. auto.
  - destruct o as (ok, out). pose proof (recv_spec ovf l fd m now l' ok out I G E) as (_ & _ & _ & _ & Eok & Eo & R).
    destruct (N.eq_dec s (m_src m)) as [Ex|Ex]; [destruct (N.eq_dec d (m_dst m)) as [Ey|Ey]|].
    + subst s d. destruct ok.
      * destruct R as (R & _). unfold fresh in Eok. rewrite Eq in Eok.
        assert (q' = m_seq m) by congruence. lia.
      * destruct R as (-> & _). auto.
    + apply Same, Eo. congruence.
    + apply Same, Eo. congruence.
  - destruct (lsupdate l now) as [[l2 out]| |] eqn:Ea; cbn in E; try discriminate.
    assert (l' = l2) by congruence. subst l2. apply update_spec in Ea; auto.
    destruct Ea as (I' & _ & _ & _ & _ & _ & _ & Ed & _).
    apply seq_of_iff in Eq' as (t & Eq'); [|apply (l_sorted _ I')]. rewrite Ed in Eq'.
    unfold kept in Eq'. apply in_map_iff in Eq' as (a & Ea & Ha). apply filter_In in Ha as (Ha & _).
    unfold refreshed in Ea. destruct (N.eqb_spec (a_src a) (own l)) as [X|X].
    + exfalso. apply Hs. rewrite <- X. congruence.
    + subst a. assert (seq_of (db l) s d = Some q') by (apply seq_of_iff; [apply (l_sorted _ I) | eauto]).
      assert (q = q') by congruence. lia.
  - destruct (recalc ovf l) as [l2| |] eqn:Ea; cbn in E; try discriminate.
    assert (l' = l2) by congruence. subst l2. apply Same. f_equal. unfold recalc in Ea. destruct (modified l).
    + now apply calc_db in Ea.
    + congruence.
Qed.

(* ---- Forwarding ---- *)

Lemma forwarding_some : forall L (table : N -> list (N * list N)) s0,
  (forall x, reachable (usable L) s0 x -> computed L x (table x)) ->
  forall n s d, reachable (usable L) s0 s -> distance (usable L) s d n ->
  forward (fun x d => first_hop (table x) d) d s n = Some d.
Proof.
  intros L table s0 Ht n. induction n as [|n IH]; intros s d Hr Hd.
  - destruct Hd as (Hw & _). inversion Hw; subst. reflexivity.
  - destruct (computed_hop L s (table s) (Ht s Hr) d n Hd) as (h & Eh & Hl & Hdh).
    cbn [forward]. rewrite Eh. apply IH; auto.
    destruct Hr as (k & Hk). exists (k + 1).
    clear - Hk Hl. induction Hk as [a|a b c k H1 H2 IH]; cbn; [eapply walk_cons; eauto; constructor|].
    eapply walk_cons; eauto.
Qed.
