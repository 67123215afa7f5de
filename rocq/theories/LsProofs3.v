(* Proofs that flooding leaves all connected nodes with the same
   database. *)

From Coq Require Import NArith ZArith List Bool Lia Sorted Arith.
From Coq Require Import ZifyBool ZifyNat ZifyN.
From Verif Require Import GraphModel GraphSpec GraphProofs3 GraphProofs5 GraphProofs6 GraphProps LsModel
  LsProofs LsProofs2.
Import ListNotations.

(* ---- Neighbours ---- *)

Lemma in_mgmt : forall l fd, In fd (mgmt_fds l) <-> exists el, In el l /\ n_type el = NB_MGMT /\ n_fd el = fd.
Proof.
  intros l fd. unfold mgmt_fds. rewrite in_map_iff. split.
  - intros (el & E & Hi). apply filter_In in Hi as (Hi & Ht). exists el. split; auto.
    destruct (n_type el); [discriminate | auto].
  - intros (el & Hi & Ht & E). exists el. split; auto. apply filter_In. split; auto. now rewrite Ht.
Qed.

Lemma in_add_nb : forall addr fd ty l el, In el (lsdb_add_nb addr fd ty l) ->
  el = Nb addr fd ty \/ In el l.
Proof.
  induction l as [|b l IH]; intros el Hi; cbn [lsdb_add_nb] in Hi.
  - destruct Hi as [<-|[]]. auto.
  - destruct (N.eqb (n_addr b) addr && nbt_eqb (n_type b) ty).
    + destruct Hi as [<-|Hi]; auto. right. now right.
    + destruct (N.ltb (n_addr b) addr).
      * destruct Hi as [<-|Hi]; auto.
      * destruct Hi as [<-|Hi]; [right; now left|]. destruct (IH el Hi); auto. right. now right.
Qed.

Lemma in_del_nb : forall addr fd l el, In el (lsdb_del_nb addr fd l) -> In el l.
Proof.
  induction l as [|b l IH]; intros el Hi; cbn [lsdb_del_nb] in Hi; auto.
  destruct (N.eqb (n_addr b) addr && N.eqb (n_fd b) fd); [now right|].
  destruct Hi as [<-|Hi]; [now left | right; auto].
Qed.

(* ---- Knowledge ---- *)

(* The database has the link with at least this sequence number. *)
Definition ge (l : ls) (s d q : N) : Prop :=
  exists q', seq_of (db l) s d = Some q' /\ (q <= q')%N.

Definition mono (l l' : ls) : Prop := forall s d q, ge l s d q -> ge l' s d q.

Lemma mono_refl : forall l, mono l l.
Proof. intros l s d q H. exact H. Qed.

(* Events that remove nothing and do not wrap a sequence number. *)
Definition quiet (l : ls) (e : event) : Prop :=
  match e with
  | DtDel _ _ => False
  | Update now => forall a, In a (db l) ->
      (now - a_stamp a <= LS_TIMEO)%Z /\ (a_seq a + 1 < 2 ^ 64)%N
  | _ => True
  end.

Lemma quiet_kept : forall me now l,
  (forall a, In a l -> (now - a_stamp a <= LS_TIMEO)%Z /\ (a_seq a + 1 < 2 ^ 64)%N) ->
  kept me now l = map (refreshed me now) l /\
  refresh_out me now = fun ns l => refresh_out me now ns l.
Proof.
  intros me now l H. split; [|reflexivity]. unfold kept. f_equal.
  induction l as [|a l IH]; cbn; auto. destruct (H a) as (H1 & _); [now left|].
  unfold expired at 1. replace (Z.ltb LS_TIMEO (now - a_stamp a)) with false by lia. cbn.
  f_equal. apply IH. intros b Hb. apply H. now right.
Qed.

Lemma quiet_filter : forall now l, (forall a, In a l -> (now - a_stamp a <= LS_TIMEO)%Z) ->
  filter (fun a => negb (expired now a)) l = l.
Proof.
  intros now l H. induction l as [|a l IH]; cbn; auto.
  unfold expired at 1. replace (Z.ltb LS_TIMEO (now - a_stamp a)) with false.
  - cbn. f_equal. apply IH. intros b Hb. apply H. now right.
  - specialize (H a (or_introl eq_refl)). lia.
Qed.

Lemma seq_of_refreshed : forall me now l s d,
  (forall a, In a l -> (a_seq a + 1 < 2 ^ 64)%N) ->
  seq_of (map (refreshed me now) l) s d =
  option_map (fun q => if N.eqb s me then (q + 1)%N else q) (seq_of l s d).
Proof.
  intros me now l s d H. induction l as [|a l IH]; cbn [map]; auto.
  rewrite !seq_of_cons. unfold is_link. destruct (refreshed_link me now a) as (-> & ->).
  fold (is_link s d a). destruct (is_link s d a) eqn:E.
  - apply is_link_iff in E as (E1 & E2). cbn. unfold refreshed. rewrite E1.
    destruct (N.eqb s me); cbn; auto. unfold inc64. f_equal. apply N.mod_small. apply H. now left.
  - apply IH. intros b Hb. apply H. now right.
Qed.

Lemma in_refresh_out : forall me now ns l fd m,
  (forall a, In a l -> (now - a_stamp a <= LS_TIMEO)%Z /\ (a_seq a + 1 < 2 ^ 64)%N) ->
  In (fd, m) (refresh_out me now ns l) <->
  In fd (mgmt_fds ns) /\ exists a, In a l /\ a_src a = me /\
    m = Lsm (a_src a) (a_dst a) (a_seq a + 1).
Proof.
  intros me now ns l fd m H. unfold refresh_out.
  rewrite quiet_filter by (intros a Ha; apply (H a Ha)). rewrite in_flat_map. split.
  - intros (a & Ha & Hi). destruct (N.eqb_spec (a_src a) me) as [E|E]; [|contradiction].
    unfold send_lsm in Hi. apply in_map_iff in Hi as (f & Ef & Hf).
    assert (f = fd) by congruence. subst f. split; auto. exists a. split; auto. split; auto.
    unfold inc64 in Ef. rewrite N.mod_small in Ef by (apply (H a Ha)). congruence.
  - intros (Hf & a & Ha & E & ->). exists a. split; auto. rewrite E, N.eqb_refl.
    unfold send_lsm. apply in_map_iff. exists fd. split; auto.
    unfold inc64. rewrite N.mod_small by (apply (H a Ha)). reflexivity.
Qed.

(* ---- One node ---- *)

(* What a step sends: nothing it does not know, and everything that is
   news to all management flows but the one it came from. *)
Definition arrived_on (e : event) (fd : N) : Prop :=
  match e with Recv fd' _ _ => fd = fd' | _ => False end.

Record sends (l : ls) (e : event) (l' : ls) (out : list (N * lsm)) : Prop := SENDS
  { sd_mono : mono l l';
    sd_known : forall fd m, In (fd, m) out -> ge l' (m_src m) (m_dst m) (m_seq m) /\ m_src m <> m_dst m;
    sd_all : forall fd s d q, In fd (mgmt_fds (nbs l')) -> seq_of (db l') s d = Some q ->
      (In fd (mgmt_fds (nbs l)) /\ seq_of (db l) s d = Some q) \/
      In (fd, Lsm s d q) out \/
      (exists fd' now, e = Recv fd' (Lsm s d q) now /\ fd = fd') }.

Lemma mono_of_seq : forall l l', (forall s d q, seq_of (db l) s d = Some q ->
  exists q', seq_of (db l') s d = Some q' /\ (q <= q')%N) -> mono l l'.
Proof.
  intros l l' H s d q (q1 & E & L). destruct (H s d q1 E) as (q2 & E2 & L2).
  exists q2. split; auto. lia.
Qed.

Lemma step_sends : forall ovf l e l' ok out, linv l -> good_event (own l) e -> quiet l e ->
  ls_step ovf l e = Ok (l', (ok, out)) -> sends l e l' out.
Proof.
  intros ovf l e l' ok out I G Q E.
  destruct e as [addr fd now|addr fd|addr fd|addr fd|fd m now|now|]; cbn [ls_step quiet good_event] in *.
  - (* DtAdd *)
    set (l1 := with_nbs l (lsdb_add_nb addr fd NB_DT (nbs l))) in *. cbn zeta in E.
    destruct (lsdb_add_link ovf l1 (own l1) addr 0 now) as [[l2 ok2]| |] eqn:Ea; cbn in E; try discriminate.
    assert (l' = l2) as -> by congruence.
    assert (out = send_lsm (nbs l) (Lsm (own l) addr 0)) as -> by congruence. clear E.
    apply add_link_spec in Ea; [|now apply (linv_ext l)|cbn; congruence].
    destruct Ea as (H1 & H2 & H3 & H4 & H5 & H6). cbn [own l1 with_nbs db nbs] in *.
    assert (Hge : ge l2 (own l) addr 0).
    { destruct ok2.
      - destruct H6 as (H6 & _). exists 0%N. split; auto. lia.
      - destruct H6 as (-> & q0 & H6 & H7). exists q0. auto. }
    constructor.
    + apply mono_of_seq. intros s d q Eq.
      destruct (N.eq_dec s (own l)) as [Es|Es]; [destruct (N.eq_dec d addr) as [Ed|Ed]|].
      * subst s d. destruct Hge as (q' & Eq' & _). exists q'. split; auto.
        destruct ok2.
        -- destruct H6 as (H6 & H7). specialize (H7 q Eq). lia.
        -- destruct H6 as (-> & _). cbn in Eq'. assert (q' = q) by congruence. lia.
      * exists q. rewrite H5 by congruence. split; auto. lia.
      * exists q. rewrite H5 by congruence. split; auto. lia.
    + intros fd' m' Hi. unfold send_lsm in Hi. apply in_map_iff in Hi as (f & Ef & _).
      assert (m' = Lsm (own l) addr 0) as -> by congruence. cbn. auto.
    + intros fd' s d q Hf Eq. rewrite H4 in Hf.
      assert (Hf' : In fd' (mgmt_fds (nbs l))).
      { apply in_mgmt in Hf as (el & He & Ht & Ef). apply in_add_nb in He as [->|He]; [discriminate|].
        apply in_mgmt. eauto. }
      destruct (N.eq_dec s (own l)) as [Es|Es]; [destruct (N.eq_dec d addr) as [Ed|Ed]|];
        try (left; split; [assumption|]; rewrite H5 in Eq by congruence; exact Eq).
      subst s d. destruct ok2.
      * destruct H6 as (H6 & H7). right. left. assert (q = 0)%N as -> by congruence.
        unfold send_lsm. apply in_map_iff. eauto.
      * destruct H6 as (-> & _). left. auto.
  - contradiction.
  - (* MgmtAdd *)
    match type of E with Ok (?x, (_, ?y)) = _ =>
      assert (l' = x) as -> by congruence; assert (out = y) as -> by congruence end.
    constructor; cbn [db nbs with_nbs].
    + intros s d q H. exact H.
    + intros fd' m Hi. unfold lsdb_replicate in Hi. apply in_map_iff in Hi as (a & Ea & Ha).
      assert (m = Lsm (a_src a) (a_dst a) (a_seq a)) as -> by congruence. cbn [m_src m_dst m_seq]. split.
      * exists (a_seq a). split; [|lia]. apply seq_of_iff; [apply (l_sorted _ I)|].
        exists (a_stamp a). now destruct a.
      * apply (l_irr _ I (a_src a, a_dst a)). apply in_map_iff. eauto.
    + intros fd' s d q Hf Eq. apply in_mgmt in Hf as (el & He & Ht & Ef).
      apply in_add_nb in He as [->|He].
      * right. left. cbn in Ef. subst fd'. apply seq_of_iff in Eq as (t & Ht'); [|apply (l_sorted _ I)].
        unfold lsdb_replicate. apply in_map_iff. exists (Adj s d q t). auto.
      * left. split; auto. apply in_mgmt. eauto.
  - (* MgmtDel *)
    match type of E with Ok (?x, (_, ?y)) = _ =>
      assert (l' = x) as -> by congruence; assert (out = y) as -> by congruence end.
    constructor; cbn [db nbs with_nbs].
    + intros s d q H. exact H.
    + intros fd' m [].
    + intros fd' s d q Hf Eq. left. split; auto. apply in_mgmt in Hf as (el & He & Ht & Ef).
      apply in_del_nb in He. apply in_mgmt. eauto.
  - (* Recv *)
    pose proof (recv_spec ovf l fd m now l' ok out I G E) as R.
    destruct R as (H1 & H2 & H3 & H4 & H5 & H6 & H7).
    constructor.
    + apply mono_of_seq. intros s d q Eq. destruct ok.
      * destruct H7 as (H7 & _). unfold fresh in H5.
        destruct (N.eq_dec s (m_src m)) as [Es|Es]; [destruct (N.eq_dec d (m_dst m)) as [Ed|Ed]|].
        -- subst s d. rewrite Eq in H5. exists (m_seq m). split; auto. lia.
        -- exists q. rewrite H6 by congruence. split; auto. lia.
        -- exists q. rewrite H6 by congruence. split; auto. lia.
      * destruct H7 as (-> & _). exists q. split; auto. lia.
    + intros fd' m' Hi. destruct ok; [|destruct H7 as (_ & -> & _); contradiction].
      destruct H7 as (H7 & ->). unfold forward_lsm in Hi. apply in_map_iff in Hi as (f & Ef & _).
      assert (m' = m) as -> by congruence. split; [exists (m_seq m); split; [auto | lia] | assumption].
    + intros fd' s d q Hf Eq. rewrite H4 in Hf. destruct ok.
      * destruct H7 as (H7 & ->).
        destruct (N.eq_dec s (m_src m)) as [Es|Es]; [destruct (N.eq_dec d (m_dst m)) as [Ed|Ed]|];
          try (left; split; [assumption|]; rewrite H6 in Eq by congruence; exact Eq).
        subst s d. assert (q = m_seq m) as -> by congruence.
        replace (Lsm (m_src m) (m_dst m) (m_seq m)) with m by now destruct m.
        right. destruct (N.eq_dec fd' fd) as [->|Hn].
        -- right. exists fd, now. auto.
        -- left. unfold forward_lsm. apply in_map_iff. exists fd'. split; auto.
           apply filter_In. split; auto. destruct (N.eqb_spec fd' fd); [contradiction | reflexivity].
      * destruct H7 as (-> & _). left. auto.
  - (* Update *)
    destruct (lsupdate l now) as [[l2 out2]| |] eqn:Ea; cbn in E; try discriminate.
    assert (l' = l2) as -> by congruence. assert (out = out2) as -> by congruence.
    apply update_spec in Ea; auto. destruct Ea as (H1 & H2 & H3 & H4 & _ & _ & _ & H5 & H6).
    destruct (quiet_kept (own l) now (db l) Q) as (Ek & _). rewrite Ek in H5.
    assert (Sq : forall s d, seq_of (db l2) s d =
      option_map (fun q => if N.eqb s (own l) then (q + 1)%N else q) (seq_of (db l) s d)).
    { intros s d. rewrite H5. apply seq_of_refreshed. intros a Ha. apply (Q a Ha). }
    constructor.
    + apply mono_of_seq. intros s d q Eq. rewrite Sq, Eq. cbn. eexists. split; [reflexivity|].
      destruct (N.eqb s (own l)); lia.
    + intros fd m Hi. rewrite H6 in Hi. apply in_refresh_out in Hi; auto.
      destruct Hi as (_ & a & Ha & Es & ->). cbn [m_src m_dst m_seq]. split.
      * exists (a_seq a + 1)%N. split; [|lia]. rewrite Sq.
        assert (seq_of (db l) (a_src a) (a_dst a) = Some (a_seq a)) as ->.
        { apply seq_of_iff; [apply (l_sorted _ I)|]. exists (a_stamp a). now destruct a. }
        cbn. now rewrite Es, N.eqb_refl.
      * apply (l_irr _ I (a_src a, a_dst a)). apply in_map_iff. eauto.
    + intros fd s d q Hf Eq. rewrite H4 in Hf. rewrite Sq in Eq.
      destruct (seq_of (db l) s d) as [q0|] eqn:E0; cbn in Eq; [|discriminate].
      destruct (N.eqb_spec s (own l)) as [Es|Es].
      * right. left. rewrite H6. apply in_refresh_out; auto. split; auto.
        apply seq_of_iff in E0 as (t & Ht); [|apply (l_sorted _ I)].
        exists (Adj s d q0 t). cbn. split; auto. split; auto. congruence.
      * left. split; auto.
  - (* Recalc *)
    destruct (recalc ovf l) as [l2| |] eqn:Ea; cbn in E; try discriminate.
    assert (l' = l2) as -> by congruence. assert (out = []) as -> by congruence.
    assert (Hs : db l2 = db l /\ nbs l2 = nbs l).
    { unfold recalc in Ea. destruct (modified l).
      - apply calculate_same in Ea. destruct Ea as (_ & _ & A & B & _). auto.
      - assert (l2 = l) as -> by congruence. auto. }
    destruct Hs as (Hd & Hn). constructor.
    + intros s d q (q' & A & B). exists q'. rewrite Hd. auto.
    + intros fd m [].
    + intros fd s d q Hf Eq. left. rewrite Hn in Hf. rewrite Hd in Eq. auto.
Qed.

(* ---- The network ---- *)

Section Converge.

  Variable ovf : overflow.
  Variable peer : N -> N -> option (N * N).
  Hypothesis Sym : forall x fd y fd', peer x fd = Some (y, fd') -> peer y fd' = Some (x, fd).

  Record ninv (n : net) : Prop := NINV
    { n_linv : forall x, linv (nodes n x);
      n_ends : forall f, In f (flying n) -> m_src (msg f) <> m_dst (msg f);
      n_sent : forall f x fd, In f (flying n) -> peer (to_node f) (to_fd f) = Some (x, fd) ->
        ge (nodes n x) (m_src (msg f)) (m_dst (msg f)) (m_seq (msg f));
      n_cover : forall x fd y fd' s d q, In fd (mgmt_fds (nbs (nodes n x))) ->
        peer x fd = Some (y, fd') -> seq_of (db (nodes n x)) s d = Some q ->
        ge (nodes n y) s d q \/
        exists q', (q <= q')%N /\ In (Flight y fd' (Lsm s d q')) (flying n) }.

  Lemma in_wire : forall x out f, In f (wire peer x out) <->
    exists fd, In (fd, msg f) out /\ peer x fd = Some (to_node f, to_fd f).
  Proof.
    intros x out f. unfold wire. rewrite in_flat_map. split.
    - intros ((fd & m) & Hi & Hf). cbn in Hf. destruct (peer x fd) as [[y fd']|] eqn:E; [|contradiction].
      destruct Hf as [<-|[]]. cbn. exists fd. auto.
    - intros (fd & Hi & E). exists (fd, msg f). split; auto. cbn. rewrite E. left. now destruct f.
  Qed.

  (* A step at node x; `gone` is what it takes off the wire. *)
  Lemma ninv_step : forall n x e l' ok out rest,
    ninv n -> good_event (own (nodes n x)) e -> quiet (nodes n x) e ->
    ls_step ovf (nodes n x) e = Ok (l', (ok, out)) ->
    (forall f, In f rest -> In f (flying n)) ->
    (forall f, In f (flying n) -> In f rest \/
       (exists now, e = Recv (to_fd f) (msg f) now /\ to_node f = x)) ->
    (forall fd m now, e = Recv fd m now -> In (Flight x fd m) (flying n)) ->
    ninv (Net (set_node n x l') (rest ++ wire peer x out)).
  Proof.
    intros n x e l' ok out rest [A B C D] G Q E R1 R2 R3.
    destruct (step_linv ovf _ e l' (ok, out) (A x) G E) as (I' & _).
    pose proof (step_sends ovf _ e l' ok out (A x) G Q E) as [S1 S2 S3].
    assert (Mono : forall y s d q, ge (nodes n y) s d q -> ge (set_node n x l' y) s d q).
    { intros y s d q Hg. unfold set_node. destruct (N.eqb_spec y x) as [E1|E1]; auto.
      subst y. apply S1. assumption. }
    (* What the step took off the wire is now known at x. *)
    assert (Gone : forall f, In f (flying n) -> In f rest \/
      (to_node f = x /\ ge l' (m_src (msg f)) (m_dst (msg f)) (m_seq (msg f)))).
    { intros f Hf. destruct (R2 f Hf) as [Hr|(now & -> & Ex)]; auto. right. split; auto.
      apply recv_spec in E; [|apply A|exact G]. destruct E as (_ & _ & _ & _ & _ & _ & E).
      destruct ok.
      - destruct E as (E & _). exists (m_seq (msg f)). split; auto. lia.
      - destruct E as (-> & _ & q0 & E1 & E2). exists q0. auto. }
    constructor; cbn [nodes flying].
    - intros y. unfold set_node. destruct (N.eqb y x); auto.
    - intros f Hf. apply in_app_or in Hf as [Hf|Hf]; [auto|].
      apply in_wire in Hf as (fd & Hi & _). apply S2 in Hi. tauto.
    - intros f y fd Hf Ep. apply in_app_or in Hf as [Hf|Hf].
      + apply Mono. eapply C; eauto.
      + apply in_wire in Hf as (fd2 & Hi & Ep2). apply Sym in Ep2.
        assert (y = x) as -> by congruence. unfold set_node. rewrite N.eqb_refl. apply S2 in Hi. tauto.
    - intros y fd z fd' s d q Hf Ep Eq.
      assert (Cov : In fd (mgmt_fds (nbs (nodes n y))) -> seq_of (db (nodes n y)) s d = Some q ->
        ge (set_node n x l' z) s d q \/
        exists q', (q <= q')%N /\ In (Flight z fd' (Lsm s d q')) (rest ++ wire peer x out)).
      { intros Hf0 Eq0. destruct (D y fd z fd' s d q Hf0 Ep Eq0) as [Hg|(q' & Hq & Hi)].
        - left. now apply Mono.
        - destruct (Gone _ Hi) as [Hr|(Ez & Hg)].
          + right. exists q'. split; auto. apply in_or_app. auto.
          + left. cbn in Ez, Hg. subst z. unfold set_node. rewrite N.eqb_refl.
            destruct Hg as (q2 & H1 & H2). exists q2. split; auto. lia. }
      unfold set_node in Hf, Eq. destruct (N.eqb_spec y x) as [Ey|Ey]; [|auto].
      subst y. destruct (S3 fd s d q Hf Eq) as [(H1 & H2)|[Hi|(fd2 & now & He & Efd)]].
      + auto.
      + right. exists q. split; [lia|]. apply in_or_app. right. apply in_wire. exists fd. auto.
      + subst fd2. left. apply Mono. apply (C (Flight x fd (Lsm s d q)) z fd').
        * eapply R3; eauto.
        * exact Ep.
  Qed.

End Converge.
