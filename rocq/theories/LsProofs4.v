(* Proofs about a node's own links, and about its forwarding table. *)

From Coq Require Import NArith ZArith List Bool Lia Sorted Arith.
From Coq Require Import ZifyBool ZifyNat ZifyN.
From Verif Require Import GraphModel GraphSpec GraphProofs3 GraphProofs5 GraphProofs6 GraphProps LsModel
  LsSpec LsProofs LsProofs2 LsProofs3.
Import ListNotations.

Lemma db_put_other : forall s d q now l a, (a_src a, a_dst a) <> (s, d) ->
  In a (snd (db_put s d q now l)) <-> In a l.
Proof.
  intros s d q now l a Hn. assert (Hna : Adj s d q now <> a) by (intros <-; apply Hn; reflexivity).
  induction l as [|b l IH]; cbn [db_put].
  - cbn. tauto.
  - destruct (N.eqb (a_dst b) d && N.eqb (a_src b) s) eqn:E.
    + fold (is_link s d b) in E. apply is_link_iff in E as (E1 & E2).
      destruct (N.ltb (a_seq b) q); cbn; [|tauto].
      assert (b <> a) by (intros <-; apply Hn; congruence). tauto.
    + destruct (N.ltb d (a_dst b) || N.eqb (a_dst b) d && N.ltb s (a_src b)); cbn; [tauto|].
      destruct (db_put s d q now l) as [r l'']. cbn in *. tauto.
Qed.

Lemma db_put_new : forall s d q now l, fst (db_put s d q now l) = None ->
  In (Adj s d q now) (snd (db_put s d q now l)).
Proof.
  induction l as [|b l IH]; cbn [db_put]; intros E; [now left|].
  destruct (N.eqb (a_dst b) d && N.eqb (a_src b) s); [destruct (N.ltb (a_seq b) q); discriminate|].
  destruct (N.ltb d (a_dst b) || N.eqb (a_dst b) d && N.ltb s (a_src b)); [now left|].
  destruct (db_put s d q now l) as [r l'']. cbn in *. right. auto.
Qed.

Lemma add_db : forall ovf l s d q now l' ok, lsdb_add_link ovf l s d q now = Ok (l', ok) ->
  db l' = snd (db_put s d q now (db l)).
Proof.
  intros ovf l s d q now l' ok E. unfold lsdb_add_link in E.
  destruct (db_put s d q now (db l)) as [[b|] db']; cbn [snd].
  - assert (l' = with_db l db' (db_len l) (gr l)) as -> by congruence. reflexivity.
  - destruct (graph_or (gr l) (graph_update_edge (gr l) s d)) as [g| |]; cbn [rbind] in E; try discriminate.
    destruct (set_pff_modified ovf (with_db l db' (db_len l + 1) g) true) as [l2| |] eqn:E2; cbn in E; try discriminate.
    assert (l' = l2) as -> by congruence. unfold set_pff_modified in E2. apply calc_db in E2. rewrite E2. reflexivity.
Qed.

Lemma db_del_in : forall s d l l', StronglySorted adj_lt l -> db_del s d l = Some l' ->
  forall a, In a l' <-> In a l /\ (a_src a, a_dst a) <> (s, d).
Proof.
  intros s d l l' Hs E. pose proof (db_del_spec s d l Hs) as P. rewrite E in P.
  destruct P as (P1 & P2 & P3 & P4 & P5 & _). intros a. split.
  - intros Ha. split; auto. intros X. apply P3. rewrite <- X. apply in_map_iff. eauto.
  - intros (Ha & Hn). clear P1 P2 P3 P4 P5. revert l' E. induction Hs as [|b l Hs IH Hf]; [contradiction|].
    intros l' E. cbn in E. destruct (N.eqb (a_dst b) d && N.eqb (a_src b) s) eqn:X.
    + fold (is_link s d b) in X. apply is_link_iff in X as (X1 & X2). assert (l' = l) as -> by congruence.
      destruct Ha as [<-|Ha]; auto. congruence.
    + destruct (db_del s d l) as [l2|]; [|discriminate]. cbn in E. assert (l' = b :: l2) as -> by congruence.
      destruct Ha as [<-|Ha]; [now left | right; auto].
Qed.

(* ---- Own links ---- *)

(* What an event says about the node's data transfer connections. *)
Definition about (e : event) : what :=
  match e with
  | DtAdd addr fd now => Up addr fd now
  | DtDel addr fd => Down addr fd
  | Update now => Round now
  | _ => Other
  end.

Definition not_mine (me : N) (e : event) : Prop :=
  match e with Recv _ m _ => m_src m <> me | _ => True end.

Record oinv (l : ls) (cs : list conn) : Prop := OINV
  { o_nd : NoDup (map c_addr cs);
    o_own : forall d t, (exists q, In (Adj (own l) d q t) (db l)) <-> (exists fd, In (Conn d fd t) cs) }.

Lemma own_step : forall ovf l e l' o cs cs', linv l -> good_event (own l) e -> not_mine (own l) e ->
  ls_step ovf l e = Ok (l', o) -> conn_step cs (about e) = Some cs' -> oinv l cs -> oinv l' cs'.
Proof.
  intros ovf l e l' o cs cs' I G Nm E Ec [Nd Own].
  destruct (step_linv ovf l e l' o I G E) as (I' & Eo & _).
  destruct e as [addr fd now|addr fd|addr fd|addr fd|fd m now|now|]; cbn [ls_step about conn_step good_event not_mine] in *.
  - destruct (existsb (fun c => N.eqb (c_addr c) addr) cs) eqn:X; [discriminate|].
    assert (cs' = Conn addr fd now :: cs) as -> by congruence.
    assert (Hnc : ~ In addr (map c_addr cs)).
    { intros Hi. apply in_map_iff in Hi as (c & Ea & Hc).
      assert (existsb (fun c => N.eqb (c_addr c) addr) cs = true).
      { apply existsb_exists. exists c. split; auto. now apply N.eqb_eq. } congruence. }
    set (l1 := with_nbs l (lsdb_add_nb addr fd NB_DT (nbs l))) in *. cbn zeta in E.
    destruct (lsdb_add_link ovf l1 (own l1) addr 0 now) as [[l2 ok2]| |] eqn:Ea; cbn in E; try discriminate.
    assert (l' = l2) as -> by congruence. apply add_db in Ea. cbn [own l1 with_nbs db] in Ea.
    pose proof (db_put_spec (own l) addr 0 now (db l) (l_sorted _ I)) as P.
    assert (Hno : ~ In (own l, addr) (links (db l))).
    { intros Hi. apply in_map_iff in Hi as (a & Ea1 & Ha). destruct a as [s' d' q' t']. cbn [a_src a_dst] in Ea1.
      assert (s' = own l) by congruence. assert (d' = addr) by congruence. subst s' d'.
      assert (Hx : exists q, In (Adj (own l) addr q t') (db l)) by eauto. apply Own in Hx as (fd' & Hx).
      apply Hnc. apply in_map_iff. exists (Conn addr fd' t'). auto. }
    assert (Fn : fst (db_put (own l) addr 0 now (db l)) = None).
    { destruct P as (_ & _ & P). destruct (fst (db_put (own l) addr 0 now (db l))) as [b|]; auto.
      exfalso. apply Hno. apply seq_of_in. destruct b; [destruct P as ((q0 & P & _) & _) | destruct P as ((q0 & P & _) & _)]; eauto. }
    constructor; [cbn; now constructor|]. rewrite Eo, Ea. intros d t.
    destruct (N.eq_dec d addr) as [->|Hd].
    + split.
      * intros (q & Hq). exists fd. left. f_equal.
        destruct P as (P1 & _ & P3). rewrite Fn in P3. destruct P3 as (_ & P3 & _).
        pose proof (db_put_new (own l) addr 0 now (db l) Fn) as Hin.
        pose proof (links_nodup _ P1) as Ndl.
        assert (Heq : Adj (own l) addr q t = Adj (own l) addr 0 now); [|congruence].
        clear - Ndl Hin Hq. unfold links in Ndl. revert Hin Hq Ndl.
        generalize (snd (db_put (own l) addr 0 now (db l))) as ll. intros ll H1 H2 Hd.
        induction ll as [|b ll IH]; [contradiction|]. cbn in Hd. apply NoDup_cons_iff in Hd as (Hd1 & Hd2).
        destruct H1 as [->|H1], H2 as [H2|H2]; auto.
        -- exfalso. apply Hd1. apply in_map_iff. exists (Adj (own l) addr q t). auto.
        -- exfalso. apply Hd1. subst b. apply in_map_iff. exists (Adj (own l) addr 0 now). auto.
      * intros (fd' & [Hq|Hq]).
        -- assert (t = now) as -> by congruence. exists 0%N. now apply db_put_new.
        -- exfalso. apply Hnc. apply in_map_iff. exists (Conn addr fd' t). auto.
    + split.
      * intros (q & Hq). rewrite db_put_other in Hq by (cbn; congruence).
        assert (Hx : exists q, In (Adj (own l) d q t) (db l)) by eauto. apply Own in Hx as (fd' & Hx).
        exists fd'. now right.
      * intros (fd' & [Hq|Hq]); [congruence|]. assert (Hx : exists fd, In (Conn d fd t) cs) by eauto.
        apply Own in Hx as (q & Hx). exists q. apply db_put_other; [cbn; congruence | assumption].
  - destruct (existsb (fun c => N.eqb (c_addr c) addr && N.eqb (c_fd c) fd) cs) eqn:X; [|discriminate].
    assert (cs' = filter (fun c => negb (N.eqb (c_addr c) addr)) cs) as -> by congruence.
    set (l1 := with_nbs l (lsdb_del_nb addr fd (nbs l))) in *. cbn zeta in E.
    destruct (lsdb_del_link ovf l1 (own l1) addr) as [l2| |] eqn:Ea; cbn in E; try discriminate.
    assert (l' = l2) as -> by congruence. unfold lsdb_del_link in Ea. cbn [own l1 with_nbs db gr] in Ea.
    assert (Hdb : forall a, In a (db l2) <-> In a (db l) /\ (a_src a, a_dst a) <> (own l, addr)).
    { destruct (db_del (own l) addr (db l)) as [db'|] eqn:Ed.
      - destruct (graph_or (gr l) (graph_del_edge (gr l) (own l) addr)) as [g| |]; cbn [rbind] in Ea; try discriminate.
        apply set_mod_same in Ea. subst l2. cbn. apply db_del_in; auto. apply (l_sorted _ I).
      - assert (l2 = l1) as -> by congruence. cbn. intros a. split; [|tauto]. intros Ha. split; auto.
        intros Hx. pose proof (db_del_spec (own l) addr (db l) (l_sorted _ I)) as P. rewrite Ed in P.
        apply P. rewrite <- Hx. apply in_map_iff. eauto. }
    constructor.
    + clear - Nd. induction cs as [|c cs IH]; cbn; [constructor|]. cbn in Nd. apply NoDup_cons_iff in Nd as (N1 & N2).
      destruct (N.eqb (c_addr c) addr); cbn; auto. constructor; auto. intros Hi. apply N1.
      apply in_map_iff in Hi as (c' & E & Hc). apply filter_In in Hc as (Hc & _). apply in_map_iff. eauto.
    + rewrite Eo. intros d t. split.
      * intros (q & Hq). apply Hdb in Hq as (Hq & Hn). cbn in Hn.
        assert (Hx : exists q, In (Adj (own l) d q t) (db l)) by eauto. apply Own in Hx as (fd' & Hx).
        exists fd'. apply filter_In. split; auto. cbn. destruct (N.eqb_spec d addr); [congruence | reflexivity].
      * intros (fd' & Hq). apply filter_In in Hq as (Hq & Hn). cbn in Hn.
        assert (Hx : exists fd, In (Conn d fd t) cs) by eauto. apply Own in Hx as (q & Hx). exists q.
        apply Hdb. split; auto. cbn. intros Hx2. assert (d = addr) by congruence. lia.
  - assert (cs' = cs) as -> by congruence.
    match type of E with Ok (?x, _) = _ => assert (l' = x) as -> by congruence end. constructor; auto.
  - assert (cs' = cs) as -> by congruence.
    match type of E with Ok (?x, _) = _ => assert (l' = x) as -> by congruence end. constructor; auto.
  - assert (cs' = cs) as -> by congruence. unfold recv_lsm in E.
    destruct (lsdb_add_link ovf l (m_src m) (m_dst m) (m_seq m) now) as [[l2 ok2]| |] eqn:Ea; cbn in E; try discriminate.
    assert (l' = l2) as -> by congruence. apply add_db in Ea. constructor; auto.
    rewrite Eo, Ea. intros d t. rewrite <- Own.
    split; intros (q & Hq); exists q; apply (db_put_other (m_src m) (m_dst m) (m_seq m) now (db l)) in Hq;
      auto; cbn; congruence.
  - destruct (forallb (fun c => Z.leb (now - c_last c) 60) cs) eqn:X; [|discriminate].
    assert (cs' = map (fun c => Conn (c_addr c) (c_fd c) now) cs) as -> by congruence.
    destruct (lsupdate l now) as [[l2 out]| |] eqn:Ea; cbn in E; try discriminate.
    assert (l' = l2) as -> by congruence. apply update_spec in Ea; auto.
    destruct Ea as (_ & _ & _ & _ & _ & _ & _ & Ed & _).
    rewrite forallb_forall in X.
    constructor; [rewrite map_map; exact Nd|].
    rewrite Eo, Ed. intros d t. unfold kept. split.
    + intros (q & Hq). apply in_map_iff in Hq as (a & Ea & Ha). apply filter_In in Ha as (Ha & _).
      destruct (refreshed_link (own l) now a) as (R1 & R2). rewrite Ea in R1, R2. cbn in R1, R2.
      unfold refreshed in Ea. rewrite <- R1, N.eqb_refl in Ea. assert (t = now) as -> by congruence.
      assert (Hx : exists q, In (Adj (own l) d q (a_stamp a)) (db l)).
      { exists (a_seq a). rewrite R1 at 1. rewrite R2. now destruct a. }
      apply Own in Hx as (fd & Hx). exists fd. apply in_map_iff. exists (Conn d fd (a_stamp a)). auto.
    + intros (fd & Hq). apply in_map_iff in Hq as (c & Ec2 & Hc). destruct c as [d' fd' t']. cbn in Ec2.
      assert (d' = d) as -> by congruence. assert (t = now) as -> by congruence.
      assert (Hx : exists fd, In (Conn d fd t') cs) by eauto. apply Own in Hx as (q & Hx).
      exists (inc64 q). apply in_map_iff. exists (Adj (own l) d q t'). split.
      * unfold refreshed. cbn. now rewrite N.eqb_refl.
      * apply filter_In. split; auto. unfold expired. cbn. specialize (X _ Hc). cbn in X. unfold LS_TIMEO. lia.
  - assert (cs' = cs) as -> by congruence.
    destruct (recalc ovf l) as [l2| |] eqn:Ea; cbn in E; try discriminate.
    assert (l' = l2) as -> by congruence. constructor; auto. rewrite Eo.
    assert (db l2 = db l) as ->; auto. unfold recalc in Ea. destruct (modified l).
    + now apply calc_db in Ea.
    + congruence.
Qed.

Lemma own_run : forall ovf es l l' os cs cs', linv l -> Forall (good_event (own l)) es ->
  Forall (not_mine (own l)) es -> ls_run ovf l es = Ok (l', os) -> conn_run cs (map about es) = Some cs' ->
  oinv l cs -> oinv l' cs'.
Proof.
  intros ovf es. induction es as [|e es IH]; intros l l' os cs cs' I G Nm E Ec O; cbn in E, Ec.
  - assert (l' = l) as -> by congruence. assert (cs' = cs) as -> by congruence. exact O.
  - destruct (ls_step ovf l e) as [[l1 o]| |] eqn:E1; cbn in E; try discriminate.
    destruct (ls_run ovf l1 es) as [[l2 os2]| |] eqn:E2; cbn in E; try discriminate.
    assert (l' = l2) as -> by congruence.
    destruct (conn_step cs (about e)) as [cs1|] eqn:Ec1; [|discriminate].
    pose proof (own_step ovf l e l1 o cs cs1 I (Forall_inv G) (Forall_inv Nm) E1 Ec1 O) as O1.
    destruct (step_linv ovf l e l1 o I (Forall_inv G) E1) as (I1 & Eo & _).
    eapply IH; eauto; rewrite Eo.
    + now apply Forall_inv_tail in G.
    + now apply Forall_inv_tail in Nm.
Qed.

(* ---- The forwarding table ---- *)

Lemma fwd_entries_in : forall ns t f, (forall d hs, In (d, hs) t -> exists h, hs = [h]) ->
  fwd_entries ns t = Ok f -> forall d fds, In (d, fds) f <->
  exists h fd, In (d, [h]) t /\ nbr_to_fd ns h = Some fd /\ fds = [fd].
Proof.
  induction t as [|[d0 hs0] t IH]; intros f H E d fds; cbn [fwd_entries] in E.
  - assert (f = []) as -> by congruence. split; [contradiction | intros (h & fd & [] & _)].
  - destruct (H d0 hs0) as (h0 & ->); [now left|]. cbn [nhop_fds] in E.
    destruct (fwd_entries ns t) as [f1| |] eqn:E1.
    2,3: destruct (nbr_to_fd ns h0); cbn in E; discriminate.
    specialize (IH f1 (fun d hs Hi => H d hs (or_intror Hi)) eq_refl d fds).
    destruct (nbr_to_fd ns h0) as [fd0|] eqn:En; cbn in E.
    + assert (f = (d0, [fd0]) :: f1) as -> by congruence. cbn [In]. rewrite IH. split.
      * intros [Hq|(h & fd & Hi & H1 & H2)].
        -- exists h0, fd0. split; [left; congruence|]. split; auto. congruence.
        -- exists h, fd. auto.
      * intros (h & fd & [Hq|Hi] & H1 & H2).
        -- left. assert (h = h0) by congruence. subst h. congruence.
        -- right. exists h, fd. auto.
    + assert (f = f1) as -> by congruence. rewrite IH. split.
      * intros (h & fd & Hi & H1 & H2). exists h, fd. split; [now right|]. auto.
      * intros (h & fd & [Hq|Hi] & H1 & H2).
        -- assert (h = h0) by congruence. subst h. congruence.
        -- exists h, fd. auto.
Qed.

Lemma nbr_to_fd_in : forall ns h fd, nbr_to_fd ns h = Some fd -> In (Nb h fd NB_DT) ns.
Proof.
  induction ns as [|[a f t] ns IH]; intros h fd E; cbn in E; [discriminate|].
  destruct (N.eqb_spec a h) as [->|Hn]; cbn in E; [|right; auto].
  destruct t; cbn in E; [left; congruence | right; auto].
Qed.

Lemma nbr_to_fd_some : forall ns h fd, In (Nb h fd NB_DT) ns -> exists fd', nbr_to_fd ns h = Some fd'.
Proof.
  induction ns as [|[a f t] ns IH]; intros h fd Hi; [contradiction|]. cbn.
  destruct (N.eqb a h && nbt_eqb t NB_DT) eqn:E; [eauto|].
  destruct Hi as [Hq|Hi]; [|eauto].
  assert (a = h) by congruence. assert (t = NB_DT) by congruence. subst.
  rewrite N.eqb_refl in E. discriminate.
Qed.
