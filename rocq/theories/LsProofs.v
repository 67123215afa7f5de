(* Proofs about the link-state database: its order, its graph. *)

From Coq Require Import NArith ZArith List Bool Lia Sorted Arith.
From Coq Require Import ZifyBool ZifyNat ZifyN.
From Verif Require Import GraphModel GraphSpec GraphProofs3 GraphProofs5 GraphProofs6 GraphProps LsModel.
Import ListNotations.

(* ---- The database as a map ---- *)

Definition adj_lt (a b : adj) : Prop :=
  (a_dst a < a_dst b \/ (a_dst a = a_dst b /\ a_src a < a_src b))%N.

Definition is_link (s d : N) (a : adj) : bool := N.eqb (a_dst a) d && N.eqb (a_src a) s.

Definition seq_of (l : list adj) (s d : N) : option N :=
  option_map a_seq (find (is_link s d) l).

Definition links (l : list adj) : list (N * N) := map (fun a => (a_src a, a_dst a)) l.

Lemma is_link_iff : forall s d a, is_link s d a = true <-> a_src a = s /\ a_dst a = d.
Proof. intros. unfold is_link. rewrite andb_true_iff, !N.eqb_eq. tauto. Qed.

Lemma lt_not_link : forall l a, Forall (adj_lt a) l -> ~ In (a_src a, a_dst a) (links l).
Proof.
  intros l a F Hi. apply in_map_iff in Hi as (b & E & Hb). rewrite Forall_forall in F.
  specialize (F b Hb). unfold adj_lt in F. injection E as E1 E2. lia.
Qed.

Lemma links_nodup : forall l, StronglySorted adj_lt l -> NoDup (links l).
Proof.
  induction 1 as [|a l Hs IH Hf]; cbn; constructor; auto. now apply lt_not_link.
Qed.

Lemma find_link_none : forall l s d, ~ In (s, d) (links l) -> find (is_link s d) l = None.
Proof.
  induction l as [|a l IH]; intros s d Hn; cbn in *; auto.
  destruct (is_link s d a) eqn:E.
  - apply is_link_iff in E as (<- & <-). exfalso. auto.
  - apply IH. auto.
Qed.

Lemma seq_of_in : forall l s d, (exists q, seq_of l s d = Some q) <-> In (s, d) (links l).
Proof.
  intros l s d. unfold seq_of. split.
  - intros (q & E). destruct (find (is_link s d) l) as [a|] eqn:F; [|discriminate].
    apply find_some in F as (F1 & F2). apply is_link_iff in F2 as (<- & <-).
    apply in_map_iff. exists a. auto.
  - intros Hi. destruct (find (is_link s d) l) as [a|] eqn:F; [cbn; eauto|].
    apply in_map_iff in Hi as (a & E & Ha). injection E as <- <-.
    pose proof (find_none _ _ F a Ha) as Hq. cbn in Hq.
    assert (is_link (a_src a) (a_dst a) a = true) by now apply is_link_iff. congruence.
Qed.

Lemma seq_of_iff : forall l s d q, StronglySorted adj_lt l ->
  seq_of l s d = Some q <-> exists t, In (Adj s d q t) l.
Proof.
  intros l s d q Hs. induction Hs as [|a l Hs IH Hf].
  - cbn. split; [discriminate | intros (t & [])].
  - unfold seq_of in *. cbn [find]. destruct (is_link s d a) eqn:E.
    + apply is_link_iff in E as (E1 & E2). cbn [option_map]. split.
      * intros Hq. exists (a_stamp a). left. destruct a; cbn in *. congruence.
      * intros (t & [Hq|Hq]); [subst a; reflexivity|].
        exfalso. apply (lt_not_link l a Hf). rewrite E1, E2. apply in_map_iff. eexists. split; [|exact Hq]. reflexivity.
    + rewrite IH. split; intros (t & Ht); exists t; [now right|].
      destruct Ht as [Hq|Hq]; auto. subst a. exfalso.
      assert (is_link s d (Adj s d q t) = true) by now apply is_link_iff. congruence.
Qed.

Lemma seq_of_cons : forall a l s d,
  seq_of (a :: l) s d = if is_link s d a then Some (a_seq a) else seq_of l s d.
Proof. intros. unfold seq_of. cbn [find]. now destruct (is_link s d a). Qed.

Lemma seq_of_none_lt : forall l a s d, Forall (adj_lt a) l ->
  a_src a = s -> a_dst a = d -> seq_of l s d = None.
Proof.
  intros l a s d F <- <-. unfold seq_of. rewrite find_link_none; auto. now apply lt_not_link.
Qed.

Lemma adj_lt_trans : forall a b c, adj_lt a b -> adj_lt b c -> adj_lt a c.
Proof. unfold adj_lt. intros. lia. Qed.

(* ---- db_put ---- *)

Definition put_spec (l : list adj) (s d q : N) (r : option bool) (l' : list adj) : Prop :=
  StronglySorted adj_lt l' /\
  (forall x y, (x, y) <> (s, d) -> seq_of l' x y = seq_of l x y) /\
  match r with
  | None => seq_of l s d = None /\ seq_of l' s d = Some q /\
      (forall p, In p (links l') <-> p = (s, d) \/ In p (links l)) /\ length l' = S (length l)
  | Some true => (exists q0, seq_of l s d = Some q0 /\ (q0 < q)%N) /\ seq_of l' s d = Some q /\
      links l' = links l
  | Some false => (exists q0, seq_of l s d = Some q0 /\ (q <= q0)%N) /\ l' = l
  end.

Lemma db_put_lt : forall s d q now l a, Forall (adj_lt a) l -> adj_lt a (Adj s d q now) ->
  Forall (adj_lt a) (snd (db_put s d q now l)).
Proof.
  induction l as [|b l IH]; intros a F Ha; cbn [db_put].
  - constructor; auto.
  - pose proof (Forall_inv F) as Fb. pose proof (Forall_inv_tail F) as Fl.
    destruct (N.eqb (a_dst b) d && N.eqb (a_src b) s) eqn:E1.
    + destruct (N.ltb (a_seq b) q); cbn; constructor; auto.
    + destruct (N.ltb d (a_dst b) || N.eqb (a_dst b) d && N.ltb s (a_src b)) eqn:E2; cbn.
      * constructor; auto.
      * specialize (IH a Fl Ha). destruct (db_put s d q now l) as [r l'']. cbn in *. constructor; auto.
Qed.

Lemma db_put_spec : forall s d q now l, StronglySorted adj_lt l ->
  put_spec l s d q (fst (db_put s d q now l)) (snd (db_put s d q now l)).
Proof.
  intros s d q now l Hs. induction Hs as [|a l Hs IH Hf]; cbn [db_put].
  - cbn. split; [repeat constructor|]. split.
    + intros x y Hn. rewrite seq_of_cons. destruct (is_link x y (Adj s d q now)) eqn:E; auto.
      apply is_link_iff in E as (E1 & E2). cbn in E1, E2. subst. congruence.
    + split; [reflexivity|]. split.
      * rewrite seq_of_cons. assert (is_link s d (Adj s d q now) = true) as -> by now apply is_link_iff. reflexivity.
      * split; [|reflexivity]. intros p. cbn. split; intros [H|H]; auto.
  - assert (El : is_link s d (Adj s d q now) = true) by now apply is_link_iff.
    destruct (N.eqb (a_dst a) d && N.eqb (a_src a) s) eqn:E1.
    + fold (is_link s d a) in E1. pose proof E1 as E1'. apply is_link_iff in E1' as (Es & Ed).
      destruct (N.ltb_spec (a_seq a) q) as [L|L]; cbn [fst snd].
      * split; [|split; [|split; [|split]]].
        -- constructor; auto. rewrite Forall_forall in *. intros b Hb. specialize (Hf b Hb).
           unfold adj_lt in *. cbn. now rewrite <- Es, <- Ed.
        -- intros x y Hn. rewrite !seq_of_cons.
           destruct (is_link x y (Adj s d q now)) eqn:E3.
           { apply is_link_iff in E3 as (E3 & E4). cbn in *. subst. congruence. }
           destruct (is_link x y a) eqn:E4; auto.
           apply is_link_iff in E4 as (E4 & E5). subst. congruence.
        -- exists (a_seq a). rewrite seq_of_cons, E1. auto.
        -- now rewrite seq_of_cons, El.
        -- cbn. now rewrite Es, Ed.
      * split; [now constructor|]. split; [auto|]. split; [|reflexivity].
        exists (a_seq a). rewrite seq_of_cons, E1. split; [reflexivity | lia].
    + fold (is_link s d a) in E1.
      assert (En : a_src a <> s \/ a_dst a <> d).
      { destruct (N.eq_dec (a_src a) s); destruct (N.eq_dec (a_dst a) d); auto.
        assert (is_link s d a = true) by now apply is_link_iff. congruence. }
      destruct (N.ltb d (a_dst a) || N.eqb (a_dst a) d && N.ltb s (a_src a)) eqn:E2; cbn [fst snd].
      * assert (La : adj_lt (Adj s d q now) a) by (unfold adj_lt; cbn; lia).
        assert (Lf : Forall (adj_lt (Adj s d q now)) (a :: l)).
        { constructor; auto. rewrite Forall_forall in *. intros b Hb. eapply adj_lt_trans; eauto. }
        split; [|split; [|split; [|split; [|split]]]].
        -- constructor; auto. now constructor.
        -- intros x y Hn. rewrite (seq_of_cons (Adj s d q now)).
           destruct (is_link x y (Adj s d q now)) eqn:E3; auto.
           apply is_link_iff in E3 as (E3 & E4). cbn in *. subst. congruence.
        -- now apply (seq_of_none_lt _ (Adj s d q now)).
        -- now rewrite seq_of_cons, El.
        -- intros p. cbn. split; intros [H|H]; auto.
        -- reflexivity.
      * assert (La : adj_lt a (Adj s d q now)) by (unfold adj_lt; cbn; lia).
        pose proof (db_put_lt s d q now l a Hf La) as Hlt.
        destruct (db_put s d q now l) as [r l'']. cbn [fst snd] in *.
        destruct IH as (S1 & S2 & S3).
        split; [now constructor|]. split.
        { intros x y Hn. rewrite !seq_of_cons. now rewrite S2. }
        rewrite !seq_of_cons, E1. destruct r as [[]|].
        -- destruct S3 as (A & B & C). split; [exact A|]. split; [exact B|]. cbn. now f_equal.
        -- destruct S3 as (A & ->). auto.
        -- destruct S3 as (A & B & C & D). split; [assumption|]. split; [assumption|]. split.
           ++ intros p. cbn. rewrite C. tauto.
           ++ cbn. now rewrite D.
Qed.

(* ---- db_del ---- *)

Lemma db_del_spec : forall s d l, StronglySorted adj_lt l ->
  match db_del s d l with
  | None => ~ In (s, d) (links l)
  | Some l' => In (s, d) (links l) /\ StronglySorted adj_lt l' /\ ~ In (s, d) (links l') /\
      (forall b, In b l' -> In b l) /\
      (forall p, p <> (s, d) -> In p (links l') <-> In p (links l)) /\
      (forall x y, (x, y) <> (s, d) -> seq_of l' x y = seq_of l x y) /\
      length l = S (length l')
  end.
Proof.
  intros s d l Hs. induction Hs as [|a l Hs IH Hf]; cbn [db_del].
  - cbn. auto.
  - destruct (N.eqb (a_dst a) d && N.eqb (a_src a) s) eqn:E1; fold (is_link s d a) in E1.
    + pose proof E1 as E1'. apply is_link_iff in E1' as (Es & Ed).
      split; [left; congruence|]. split; [assumption|]. split.
      { intros Hi. apply (lt_not_link l a Hf). now rewrite Es, Ed. }
      split; [intros b Hb; now right|]. split.
      { intros p Hp. cbn. split; auto. intros [Hq|Hq]; auto. congruence. }
      split; [|reflexivity].
      intros x y Hn. rewrite seq_of_cons. destruct (is_link x y a) eqn:E4; auto.
      apply is_link_iff in E4 as (E4 & E5). subst. congruence.
    + destruct (db_del s d l) as [l'|]; cbn [option_map].
      * destruct IH as (A & B & C & D & E & F & G).
        split; [now right|]. split.
        { constructor; auto. rewrite Forall_forall in *. auto. }
        split.
        { intros [Hq|Hq]; auto. injection Hq as <- <-.
          assert (is_link (a_src a) (a_dst a) a = true) by now apply is_link_iff. congruence. }
        split; [intros b [Hb|Hb]; [left | right]; auto|]. split.
        { intros p Hp. cbn. rewrite (E p Hp). tauto. }
        split; [|cbn; now rewrite G].
        intros x y Hn. rewrite !seq_of_cons. now rewrite F.
      * intros [Hq|Hq]; auto. injection Hq as <- <-.
        assert (is_link (a_src a) (a_dst a) a = true) by now apply is_link_iff. congruence.
Qed.

(* ---- The graph of a set of links ---- *)

Definition built (g : graph) (s : list (N * N)) : Prop :=
  exists ops L rs, links_run [] ops = Some L /\ graph_run graph_create ops = Ok (rs, g) /\
    (forall p, In p L <-> In p s).

Lemma links_run_app : forall a L b, links_run L (a ++ b) =
  match links_run L a with Some L' => links_run L' b | None => None end.
Proof.
  induction a as [|o a IH]; intros L b; cbn; auto.
  destruct o.
  - destruct (N.eqb s d || existsb (pair_eqb (s, d)) L); auto.
  - destruct (existsb (pair_eqb (s, d)) L); auto.
Qed.

Lemma graph_run_snoc : forall ops g rs g' o, graph_run g ops = Ok (rs, g') ->
  graph_run g (ops ++ [o]) = rbind (graph_step g' o) (fun '(r, g'') => Ok (rs ++ [r], g'')).
Proof.
  induction ops as [|o' ops IH]; intros g rs g' o E; cbn in *.
  - injection E as <- <-. destruct (graph_step g o) as [[r g'']| |]; reflexivity.
  - destruct (graph_step g o') as [[r g1]| |]; cbn in *; try discriminate.
    destruct (graph_run g1 ops) as [[rs1 g2]| |] eqn:E1; cbn in *; try discriminate.
    assert (rs = r :: rs1) as -> by congruence. assert (g' = g2) as -> by congruence.
    rewrite (IH g1 rs1 g2 o E1). destruct (graph_step g2 o) as [[r2 g3]| |]; reflexivity.
Qed.

Lemma pair_eqb_iff : forall p q, pair_eqb p q = true <-> p = q.
Proof.
  intros [a b] [c d]. unfold pair_eqb. cbn. rewrite andb_true_iff, !N.eqb_eq. split.
  - intros (-> & ->). reflexivity.
  - intros E. injection E as <- <-. auto.
Qed.

Lemma existsb_pair : forall p L, existsb (pair_eqb p) L = true <-> In p L.
Proof.
  intros p L. rewrite existsb_exists. split.
  - intros (x & Hx & E). apply pair_eqb_iff in E. now subst.
  - intros Hi. exists p. split; auto. now apply pair_eqb_iff.
Qed.

Lemma links_run_nodup : forall ops L L', NoDup L -> links_run L ops = Some L' -> NoDup L'.
Proof.
  induction ops as [|[s d|s d] ops IH]; intros L L' Hn E; cbn in E.
  - now injection E as <-.
  - destruct (N.eqb s d || existsb (pair_eqb (s, d)) L) eqn:B; [discriminate|].
    apply orb_false_iff in B as (_ & B). eapply IH; [|exact E]. constructor; auto.
    intros Hi. apply existsb_pair in Hi. congruence.
  - destruct (existsb (pair_eqb (s, d)) L); [|discriminate].
    eapply IH; [|exact E]. now apply NoDup_filter.
Qed.

Lemma built_create : built graph_create [].
Proof. exists [], [], []. split; [reflexivity|]. split; [reflexivity|]. tauto. Qed.

Lemma built_ext : forall g s s', (forall p, In p s <-> In p s') -> built g s -> built g s'.
Proof.
  intros g s s' E (ops & L & rs & A & B & C). exists ops, L, rs. split; auto. split; auto.
  intros p. rewrite C. apply E.
Qed.

Lemma step_true : forall ops rs g o L, graph_run graph_create ops = Ok (rs, g) ->
  links_run [] (ops ++ [o]) = Some L -> exists g', graph_step g o = Ok (true, g') /\
    graph_run graph_create (ops ++ [o]) = Ok (rs ++ [true], g').
Proof.
  intros ops rs g o L E El. destruct (links_shows _ _ El) as (rs' & g' & Eg & F & _).
  rewrite (graph_run_snoc _ _ _ _ o E) in *.
  destruct (graph_step g o) as [[r g2]| |]; cbn in *; try discriminate.
  assert (rs' = rs ++ [r]) by congruence. subst rs'. apply Forall_app in F as (_ & F).
  apply Forall_inv in F. subst r. exists g2. split; reflexivity.
Qed.

Lemma built_announce : forall g S s d, built g S -> s <> d -> ~ In (s, d) S ->
  exists g', graph_update_edge g s d = Ok g' /\ built g' ((s, d) :: S).
Proof.
  intros g S s d (ops & L & rs & A & B & C) Hn Hi.
  assert (El : links_run [] (ops ++ [Announce s d]) = Some ((s, d) :: L)).
  { rewrite links_run_app, A. cbn. destruct (N.eqb_spec s d); [contradiction|]. cbn [orb].
    destruct (existsb (pair_eqb (s, d)) L) eqn:X; auto.
    apply existsb_pair in X. apply C in X. contradiction. }
  destruct (step_true ops rs g _ _ B El) as (g' & Es & Er). exists g'. split.
  - unfold graph_step in Es. destruct (graph_update_edge g s d) as [g2| |]; try discriminate. congruence.
  - exists (ops ++ [Announce s d]), ((s, d) :: L), (rs ++ [true]). split; auto. split; auto.
    intros p. cbn. rewrite C. tauto.
Qed.

Lemma built_withdraw : forall g S S' s d, built g S -> In (s, d) S ->
  (forall p, In p S' <-> p <> (s, d) /\ In p S) ->
  exists g', graph_del_edge g s d = Ok g' /\ built g' S'.
Proof.
  intros g S S' s d (ops & L & rs & A & B & C) Hi E.
  assert (El : links_run [] (ops ++ [Withdraw s d]) = Some (filter (fun p => negb (pair_eqb (s, d) p)) L)).
  { rewrite links_run_app, A. cbn. apply C in Hi. apply existsb_pair in Hi. now rewrite Hi. }
  destruct (step_true ops rs g _ _ B El) as (g' & Es & Er). exists g'. split.
  - unfold graph_step in Es. destruct (graph_del_edge g s d) as [g2| |]; try discriminate. congruence.
  - eexists _, _, (rs ++ [true]). split; [exact El|]. split; [exact Er|].
    intros p. rewrite filter_In, C, E. split.
    + intros (H1 & H2). split; auto. intros ->.
      assert (pair_eqb (s, d) (s, d) = true) by now apply pair_eqb_iff. destruct (pair_eqb (s, d) (s, d)); discriminate.
    + intros (H1 & H2). split; auto. destruct (pair_eqb (s, d) p) eqn:X; auto.
      apply pair_eqb_iff in X. congruence.
Qed.

(* ---- The invariant of a node ---- *)

Record linv (l : ls) : Prop := LINV
  { l_sorted : StronglySorted adj_lt (db l);
    l_irr : forall p, In p (links (db l)) -> fst p <> snd p;
    l_built : built (gr l) (links (db l)) }.

Lemma linv_ext : forall l l', linv l -> db l' = db l -> gr l' = gr l -> linv l'.
Proof. intros l l' [A B C] E1 E2. constructor; rewrite E1; rewrite ?E2; auto. Qed.

Lemma linv_init : forall a p, linv (ls_init a p).
Proof. intros. constructor; cbn; [constructor | contradiction | apply built_create]. Qed.

(* Fields that calculate_pff leaves alone. *)
Definition same_but_fwd (l l' : ls) : Prop :=
  own l' = own l /\ policy l' = policy l /\ nbs l' = nbs l /\ db l' = db l /\
  db_len l' = db_len l /\ gr l' = gr l /\ modified l' = modified l.

Lemma calculate_same : forall ovf l l', calculate_pff ovf l = Ok l' -> same_but_fwd l l'.
Proof.
  intros ovf l l' E. unfold calculate_pff in E.
  destruct (graph_routing_table ovf (gr l) (policy l) (own l)) as [t| |]; try discriminate.
  - destruct (fwd_entries (nbs l) t) as [f| |]; cbn in E; try discriminate.
    assert (l' = with_fwd l f) as -> by congruence. unfold same_but_fwd. cbn. auto 10.
  - assert (l' = l) as -> by congruence. unfold same_but_fwd. auto 10.
Qed.

(* What a step may change apart from the PFF. *)
Lemma add_link_spec : forall ovf l s d q now l' ok, linv l -> s <> d ->
  lsdb_add_link ovf l s d q now = Ok (l', ok) ->
  linv l' /\ own l' = own l /\ policy l' = policy l /\ nbs l' = nbs l /\
  (forall x y, (x, y) <> (s, d) -> seq_of (db l') x y = seq_of (db l) x y) /\
  (if ok then seq_of (db l') s d = Some q /\
              (forall q0, seq_of (db l) s d = Some q0 -> (q0 < q)%N)
   else l' = l /\ exists q0, seq_of (db l) s d = Some q0 /\ (q <= q0)%N).
Proof.
  intros ovf l s d q now l' ok [A B C] Hn E. unfold lsdb_add_link in E.
  pose proof (db_put_spec s d q now (db l) A) as P.
  destruct (db_put s d q now (db l)) as [r db']. cbn [fst snd] in P.
  destruct P as (P1 & P2 & P3). destruct r as [r|].
  - assert (l' = with_db l db' (db_len l) (gr l)) as -> by congruence. assert (ok = r) as -> by congruence. clear E.
    destruct r.
    + destruct P3 as ((q0 & E0 & L0) & E1 & E2).
      split. { constructor; cbn [db gr with_db]; auto; rewrite E2; auto. }
      cbn. split; [reflexivity|]. split; [reflexivity|]. split; [reflexivity|].
      split; [exact P2|]. split; [assumption|]. intros q1 E3. assert (q1 = q0) by congruence. now subst.
    + destruct P3 as ((q0 & E0 & L0) & ->).
      split. { constructor; cbn; auto. }
      cbn. split; [reflexivity|]. split; [reflexivity|]. split; [reflexivity|]. split; [auto|].
      split; [now destruct l | eauto].
  - destruct P3 as (P3 & P4 & P5 & P6).
    assert (Hni : ~ In (s, d) (links (db l))).
    { intros Hi. apply seq_of_in in Hi as (q0 & Hq). congruence. }
    destruct (built_announce _ _ s d C Hn Hni) as (g & Eg & Bg). rewrite Eg in E. cbn [graph_or rbind] in E.
    destruct (set_pff_modified ovf (with_db l db' (db_len l + 1) g) true) as [l2| |] eqn:Em; cbn in E; try discriminate.
    assert (l' = l2) as -> by congruence. assert (ok = true) as -> by congruence. clear E.
    unfold set_pff_modified in Em. apply calculate_same in Em. cbn in Em.
    destruct Em as (M1 & M2 & M3 & M4 & M5 & M6 & M7). cbn in *. rewrite M4.
    split.
    { constructor; rewrite M4; auto.
      - intros p Hp. apply P5 in Hp as [->|Hp]; auto.
      - rewrite M6. eapply built_ext; [|exact Bg]. intros p. rewrite P5. cbn. split; intros [H|H]; auto. }
    split; [assumption|]. split; [assumption|]. split; [assumption|]. split; [assumption|].
    split; [assumption|]. intros q0 E0. congruence.
Qed.

Lemma set_mod_same : forall ovf l l', set_pff_modified ovf l false = Ok l' ->
  l' = with_mod l true.
Proof. intros ovf l l' E. unfold set_pff_modified in E. congruence. Qed.

Lemma del_link_spec : forall ovf l s d l', linv l -> lsdb_del_link ovf l s d = Ok l' ->
  linv l' /\ own l' = own l /\ policy l' = policy l /\ nbs l' = nbs l /\
  (forall x y, (x, y) <> (s, d) -> seq_of (db l') x y = seq_of (db l) x y) /\
  seq_of (db l') s d = None.
Proof.
  intros ovf l s d l' [A B C] E. unfold lsdb_del_link in E.
  pose proof (db_del_spec s d (db l) A) as P. destruct (db_del s d (db l)) as [db'|].
  - destruct P as (P1 & P2 & P3 & P4 & P5 & P6 & P7).
    destruct (built_withdraw (gr l) (links (db l)) (links db') s d C P1) as (g & Eg & Bg).
    { intros p. split.
      - intros Hp. assert (p <> (s, d)) by (intros ->; auto). split; auto. now apply P5.
      - intros (H1 & H2). now apply P5. }
    rewrite Eg in E. cbn [graph_or rbind] in E. apply set_mod_same in E. subst l'. cbn.
    split. { constructor; cbn; auto. intros p Hp. apply B. apply P5; auto. intros ->. auto. }
    split; [reflexivity|]. split; [reflexivity|]. split; [reflexivity|]. split; [assumption|].
    destruct (seq_of db' s d) as [q0|] eqn:X; auto. exfalso. apply P3. apply seq_of_in. eauto.
  - assert (l' = l) as -> by congruence. split; [now constructor|].
    split; [reflexivity|]. split; [reflexivity|]. split; [reflexivity|]. split; [auto|].
    destruct (seq_of (db l) s d) as [q0|] eqn:X; auto. exfalso. apply P. apply seq_of_in. eauto.
Qed.

(* ---- lsupdate ---- *)

(* What a round makes of one entry. *)
Definition refreshed (me : N) (now : Z) (a : adj) : adj :=
  if N.eqb (a_src a) me then Adj (a_src a) (a_dst a) (inc64 (a_seq a)) now else a.

Definition expired (now : Z) (a : adj) : bool := Z.ltb LS_TIMEO (now - a_stamp a).

Definition kept (me : N) (now : Z) (l : list adj) : list adj :=
  map (refreshed me now) (filter (fun a => negb (expired now a)) l).

Definition refresh_out (me : N) (now : Z) (ns : list nb) (l : list adj) : list (N * lsm) :=
  flat_map (fun a => if N.eqb (a_src a) me
                     then send_lsm ns (Lsm (a_src a) (a_dst a) (inc64 (a_seq a))) else [])
           (filter (fun a => negb (expired now a)) l).

Lemma refreshed_link : forall me now a, a_src (refreshed me now a) = a_src a /\ a_dst (refreshed me now a) = a_dst a.
Proof. intros. unfold refreshed. destruct (N.eqb (a_src a) me); cbn; auto. Qed.

Lemma update_loop_ok : forall me now ns l g S, built g (S ++ links l) -> NoDup (S ++ links l) ->
  exists g', update_loop me now ns g l = Ok (kept me now l, g', refresh_out me now ns l) /\
    built g' (S ++ links (kept me now l)).
Proof.
  induction l as [|a l IH]; intros g S Bg Nd; cbn [update_loop].
  - exists g. split; [reflexivity|]. exact Bg.
  - unfold kept, refresh_out. cbn [filter]. fold (expired now a).
    destruct (expired now a) eqn:Ex; cbn [negb].
    + cbn [links map] in Bg, Nd.
      destruct (built_withdraw g _ (S ++ links l) (a_src a) (a_dst a) Bg) as (g1 & Eg & B1).
      { apply in_or_app. right. now left. }
      { intros p. rewrite !in_app_iff. cbn. apply NoDup_remove_2 in Nd.
        split.
        - intros Hp. split; [|tauto]. intros ->. apply Nd. apply in_or_app. auto.
        - intros (H1 & [H2|[H2|H2]]); auto. congruence. }
      rewrite Eg. cbn [graph_or rbind]. apply NoDup_remove_1 in Nd.
      destruct (IH g1 S B1 Nd) as (g' & E' & B'). exists g'. split; auto.
    + destruct (IH g (S ++ [(a_src a, a_dst a)])) as (g' & E' & B').
      { rewrite <- app_assoc. exact Bg. } { rewrite <- app_assoc. exact Nd. }
      cbn zeta. rewrite E'. cbn [rbind]. exists g'. split.
      * cbn [map flat_map]. unfold refreshed, kept, refresh_out. destruct (N.eqb (a_src a) me); reflexivity.
      * cbn [map links]. destruct (refreshed_link me now a) as (-> & ->). rewrite <- app_assoc in B'. exact B'.
Qed.

Lemma sorted_map : forall f l, (forall a, a_src (f a) = a_src a /\ a_dst (f a) = a_dst a) ->
  StronglySorted adj_lt l -> StronglySorted adj_lt (map f l).
Proof.
  intros f l Hf Hs. induction Hs as [|a l Hs IH Hfa]; cbn; constructor; auto.
  rewrite Forall_forall in *. intros b Hb. apply in_map_iff in Hb as (c & <- & Hc).
  specialize (Hfa c Hc). unfold adj_lt in *. destruct (Hf a) as (-> & ->), (Hf c) as (-> & ->). auto.
Qed.

Lemma sorted_filter : forall p l, StronglySorted adj_lt l -> StronglySorted adj_lt (filter p l).
Proof.
  intros p l Hs. induction Hs as [|a l Hs IH Hf]; cbn; [constructor|].
  destruct (p a); auto. constructor; auto. rewrite Forall_forall in *. intros b Hb.
  apply filter_In in Hb as (Hb & _). auto.
Qed.

Lemma kept_sorted : forall me now l, StronglySorted adj_lt l -> StronglySorted adj_lt (kept me now l).
Proof. intros. apply sorted_map; [intros; apply refreshed_link|]. now apply sorted_filter. Qed.

Lemma kept_links : forall me now l p, In p (links (kept me now l)) -> In p (links l).
Proof.
  intros me now l p Hp. unfold links, kept in *. rewrite map_map in Hp.
  apply in_map_iff in Hp as (a & E & Ha). apply filter_In in Ha as (Ha & _).
  destruct (refreshed_link me now a) as (E1 & E2). rewrite E1, E2 in E. apply in_map_iff. eauto.
Qed.

Lemma update_spec : forall l now l' out, linv l -> lsupdate l now = Ok (l', out) ->
  linv l' /\ own l' = own l /\ policy l' = policy l /\ nbs l' = nbs l /\
  modified l' = modified l /\ fwd l' = fwd l /\ db_len l' = db_len l /\
  db l' = kept (own l) now (db l) /\ out = refresh_out (own l) now (nbs l) (db l).
Proof.
  intros l now l' out [A B C] E. unfold lsupdate in E.
  destruct (update_loop_ok (own l) now (nbs l) (db l) (gr l) []) as (g' & Eg & Bg); auto.
  { apply links_nodup, A. }
  rewrite Eg in E. cbn [rbind] in E.
  assert (l' = with_db l (kept (own l) now (db l)) (db_len l) g') as -> by congruence.
  assert (out = refresh_out (own l) now (nbs l) (db l)) as -> by congruence.
  cbn. split; [|auto 10].
  constructor; cbn; [now apply kept_sorted | | exact Bg].
  intros p Hp. apply kept_links in Hp. auto.
Qed.

Lemma update_total : forall l now, linv l -> exists l' out, lsupdate l now = Ok (l', out).
Proof.
  intros l now [A B C]. unfold lsupdate.
  destruct (update_loop_ok (own l) now (nbs l) (db l) (gr l) []) as (g' & Eg & Bg); auto.
  { apply links_nodup, A. }
  rewrite Eg. cbn. eauto.
Qed.

(* ---- Steps ---- *)

(* No link from a node to itself. *)
Definition good_event (me : N) (e : event) : Prop :=
  match e with
  | DtAdd addr _ _ => addr <> me
  | Recv _ m _ => m_src m <> m_dst m
  | _ => True
  end.

Lemma step_linv : forall ovf l e l' o, linv l -> good_event (own l) e ->
  ls_step ovf l e = Ok (l', o) -> linv l' /\ own l' = own l /\ policy l' = policy l.
Proof.
  intros ovf l e l' o I G E. destruct e as [addr fd now|addr fd|addr fd|addr fd|fd m now|now|]; cbn [ls_step] in E.
  - destruct (lsdb_add_link ovf (with_nbs l (lsdb_add_nb addr fd NB_DT (nbs l)))
                (own (with_nbs l (lsdb_add_nb addr fd NB_DT (nbs l)))) addr 0 now) as [[l2 ok]| |] eqn:Ea;
      cbn in E; try discriminate.
    assert (l' = l2) as -> by congruence.
    apply add_link_spec in Ea; [|now apply (linv_ext l)|cbn; congruence].
    destruct Ea as (H1 & H2 & H3 & _). auto.
  - destruct (lsdb_del_link ovf (with_nbs l (lsdb_del_nb addr fd (nbs l)))
                (own (with_nbs l (lsdb_del_nb addr fd (nbs l)))) addr) as [l2| |] eqn:Ea; cbn in E; try discriminate.
    assert (l' = l2) as -> by congruence.
    apply del_link_spec in Ea; [|now apply (linv_ext l)]. destruct Ea as (H1 & H2 & H3 & _). auto.
  - match type of E with Ok (?x, _) = _ => assert (l' = x) as -> by congruence end.
    split; [now apply (linv_ext l) | auto].
  - match type of E with Ok (?x, _) = _ => assert (l' = x) as -> by congruence end.
    split; [now apply (linv_ext l) | auto].
  - unfold recv_lsm in E.
    destruct (lsdb_add_link ovf l (m_src m) (m_dst m) (m_seq m) now) as [[l2 ok]| |] eqn:Ea; cbn in E; try discriminate.
    assert (l' = l2) as -> by congruence. apply add_link_spec in Ea; auto. destruct Ea as (H1 & H2 & H3 & _). auto.
  - destruct (lsupdate l now) as [[l2 out]| |] eqn:Ea; cbn in E; try discriminate.
    assert (l' = l2) as -> by congruence. apply update_spec in Ea; auto. tauto.
  - destruct (recalc ovf l) as [l2| |] eqn:Ea; cbn in E; try discriminate.
    assert (l' = l2) as -> by congruence. unfold recalc in Ea. destruct (modified l).
    + apply calculate_same in Ea. destruct Ea as (M1 & M2 & M3 & M4 & M5 & M6 & M7). cbn in *.
      split; [now apply (linv_ext l) | auto].
    + assert (l2 = l) as -> by congruence. auto.
Qed.

Lemma run_linv : forall ovf es l l' os, linv l -> Forall (good_event (own l)) es ->
  ls_run ovf l es = Ok (l', os) -> linv l' /\ own l' = own l /\ policy l' = policy l.
Proof.
  intros ovf es. induction es as [|e es IH]; intros l l' os I F E; cbn in E.
  - assert (l' = l) as -> by congruence. auto.
  - destruct (ls_step ovf l e) as [[l1 o]| |] eqn:E1; cbn in E; try discriminate.
    destruct (ls_run ovf l1 es) as [[l2 os2]| |] eqn:E2; cbn in E; try discriminate.
    assert (l' = l2) as -> by congruence.
    destruct (step_linv ovf l e l1 o I (Forall_inv F) E1) as (I1 & O1 & P1).
    apply IH in E2; auto.
    + destruct E2 as (A & B & C). split; auto. split; congruence.
    + rewrite O1. now apply Forall_inv_tail in F.
Qed.
