(* Histories of announcements. *)

From Coq Require Import NArith ZArith List Bool Lia Sorted Arith.
From Coq Require Import ZifyBool ZifyNat ZifyN.
From Verif Require Import GraphModel GraphSpec GraphProofs GraphProofs2 GraphProofs3 GraphProofs4 GraphProofs5.
Import ListNotations.

(* ---- Counts ---- *)

Definition agrees (g : graph) (c : counts) : Prop :=
  forall x y, zdef (gedge g x y) = c x y.

Lemma step_ok : forall g c o, ginv g -> agrees g c -> distinct_ends o ->
  exists g', graph_step g o = Ok (fst (count_step c o), g') /\ ginv g' /\
    agrees g' (snd (count_step c o)).
Proof.
  intros g c o G A Hd. destruct o as [s d|s d]; cbn [distinct_ends] in Hd; unfold graph_step.
  - destruct (update_ginv g s d G Hd) as (g' & -> & G' & C'). exists g'. split; [reflexivity|].
    split; [assumption|]. intros x y. unfold gedge. rewrite C', update_edge by (auto; apply G).
    cbn [count_step snd]. unfold add_count. rewrite <- (A x y). unfold gedge.
    destruct (same_link s d x y); reflexivity.
  - pose proof (del_ginv g s d G Hd) as Dl. cbn [count_step]. rewrite <- (A s d).
    destruct (gedge g s d) as [n|] eqn:E.
    + destruct Dl as (g' & -> & G' & C').
      assert (Hn : (1 <= n)%Z) by (apply (c_pos _ (proj2 G) s d); exact E).
      cbn [zdef]. destruct (Z.ltb_spec 0 n); [|lia]. cbn [fst snd].
      exists g'. split; [reflexivity|]. split; [assumption|].
      intros x y. unfold gedge. rewrite C', del_edge by (auto; apply G).
      unfold add_count. rewrite <- (A x y). unfold gedge.
      destruct (same_link s d x y) eqn:Sl; [|reflexivity].
      assert (Ex : edge_of (clean g) x y = Some n).
      { apply same_link_cases in Sl as [(-> & ->)|(-> & ->)]; auto.
        rewrite (c_sym _ (proj2 G)). exact E. }
      rewrite Ex. cbn [dec1 zdef]. destruct (Z.eqb_spec (n - 1) 0); cbn [zdef]; lia.
    + rewrite Dl. cbn [zdef Z.ltb Z.compare fst snd]. exists g. auto.
Qed.

Lemma run_ok : forall ops g c, ginv g -> agrees g c -> Forall distinct_ends ops ->
  exists g', graph_run g ops = Ok (fst (count_run c ops), g') /\ ginv g' /\
    agrees g' (snd (count_run c ops)).
Proof.
  induction ops as [|o ops IH]; intros g c G A F; cbn [graph_run count_run].
  - exists g. auto.
  - destruct (step_ok g c o G A (Forall_inv F)) as (g1 & -> & G1 & A1). cbn [rbind].
    destruct (count_step c o) as [r c1]. cbn [fst snd] in *.
    destruct (IH g1 c1 G1 A1 (Forall_inv_tail F)) as (g2 & -> & G2 & A2). cbn [rbind].
    destruct (count_run c1 ops) as [rs c2]. cbn [fst snd] in *. exists g2. auto.
Qed.

Lemma agrees_create : agrees graph_create no_counts.
Proof. intros x y. reflexivity. Qed.

(* ---- Directed announcements ---- *)

Definition b2z (b : bool) : Z := if b then 1%Z else 0%Z.

Definition mem (L : list (N * N)) (a b : N) : bool := existsb (pair_eqb (a, b)) L.

Lemma mem_in : forall L a b, mem L a b = true <-> In (a, b) L.
Proof.
  intros L a b. unfold mem. rewrite existsb_exists. split.
  - intros ([x y] & Hi & Hq). unfold pair_eqb in Hq. cbn in Hq.
    assert (a = x /\ b = y) as (-> & ->) by lia. assumption.
  - intros Hi. exists (a, b). split; [assumption|]. unfold pair_eqb. cbn. lia.
Qed.

Definition linv (L : list (N * N)) (c : counts) : Prop :=
  (forall a, ~ In (a, a) L) /\
  forall a b, a <> b -> c a b = (b2z (mem L a b) + b2z (mem L b a))%Z.

Lemma mem_cons : forall L s d a b, mem ((s, d) :: L) a b = (N.eqb a s && N.eqb b d) || mem L a b.
Proof. intros. unfold mem, pair_eqb. cbn. reflexivity. Qed.

Lemma mem_filter : forall L s d a b,
  mem (filter (fun p => negb (pair_eqb (s, d) p)) L) a b = mem L a b && negb (N.eqb a s && N.eqb b d).
Proof.
  intros L s d a b. apply eq_true_iff_eq. rewrite andb_true_iff, !mem_in, filter_In.
  unfold pair_eqb. cbn [fst snd]. rewrite (N.eqb_sym s a), (N.eqb_sym d b). tauto.
Qed.

Lemma links_run_ok : forall ops L c L', linv L c -> links_run L ops = Some L' ->
  Forall distinct_ends ops /\ linv L' (snd (count_run c ops)) /\
  Forall (fun r => r = true) (fst (count_run c ops)).
Proof.
  induction ops as [|o ops IH]; intros L c L' I E; cbn [links_run] in E.
  - assert (L = L') by congruence. subst. cbn. auto.
  - destruct I as (Irr & Cnt). destruct o as [s d|s d].
    + destruct (N.eqb_spec s d) as [Hsd|Hsd]; [discriminate|]. cbn [orb] in E.
      fold (mem L s d) in E. destruct (mem L s d) eqn:M; [discriminate|].
      destruct (IH ((s, d) :: L) (add_count c s d 1) L') as (F & I' & R); auto.
      { split.
        - intros a [Hq|Hq]; [congruence | now apply (Irr a)].
        - intros a b Hab. rewrite !mem_cons. unfold add_count.
          destruct (same_link s d a b) eqn:Sl.
          + apply same_link_cases in Sl as [(-> & ->)|(-> & ->)]; auto.
            * rewrite Cnt by assumption. rewrite M, !N.eqb_refl.
              destruct (N.eqb_spec d s); [congruence|]. cbn [andb orb]. destruct (mem L d s); reflexivity.
            * rewrite Cnt by assumption. rewrite M, !N.eqb_refl.
              destruct (N.eqb_spec d s); [congruence|]. cbn [andb orb]. destruct (mem L d s); reflexivity.
          + rewrite Cnt by assumption.
            assert (N.eqb a s && N.eqb b d = false) as -> by (unfold same_link in Sl; lia).
            assert (N.eqb b s && N.eqb a d = false) as -> by (unfold same_link in Sl; lia). reflexivity. }
      cbn [count_run count_step]. destruct (count_run (add_count c s d 1) ops) as [rs c'] eqn:Er.
      cbn [fst snd] in *. split; [|split]; auto.
    + fold (mem L s d) in E. destruct (mem L s d) eqn:M; [|discriminate].
      assert (Hsd : s <> d). { intros ->. apply mem_in in M. now apply (Irr d). }
      assert (Hpos : (0 < c s d)%Z).
      { rewrite Cnt by assumption. rewrite M. destruct (mem L d s); cbn; lia. }
      destruct (IH (filter (fun p => negb (pair_eqb (s, d) p)) L) (add_count c s d (-1)) L')
        as (F & I' & R); auto.
      { split.
        - intros a Hq. apply filter_In in Hq as (Hq & _). now apply (Irr a).
        - intros a b Hab. rewrite !mem_filter. unfold add_count.
          destruct (same_link s d a b) eqn:Sl.
          + apply same_link_cases in Sl as [(-> & ->)|(-> & ->)]; auto.
            * rewrite Cnt by assumption. rewrite M, !N.eqb_refl.
              destruct (N.eqb_spec d s); [congruence|]. cbn [andb negb].
              rewrite andb_true_r. destruct (mem L d s); reflexivity.
            * rewrite Cnt by assumption. rewrite M, !N.eqb_refl.
              destruct (N.eqb_spec d s); [congruence|]. cbn [andb negb].
              rewrite andb_true_r. destruct (mem L d s); reflexivity.
          + rewrite Cnt by assumption.
            assert (N.eqb a s && N.eqb b d = false) as -> by (unfold same_link in Sl; lia).
            assert (N.eqb b s && N.eqb a d = false) as -> by (unfold same_link in Sl; lia).
            cbn [negb]. rewrite !andb_true_r. reflexivity. }
      cbn [count_run count_step]. destruct (Z.ltb_spec 0 (c s d)); [|lia].
      destruct (count_run (add_count c s d (-1)) ops) as [rs c'] eqn:Er.
      cbn [fst snd] in *. split; [|split]; auto.
Qed.

Lemma linv_nil : linv [] no_counts.
Proof. split; [intros a []|]. intros a b _. reflexivity. Qed.

(* The graph after a history of links. *)
Record shows (g : graph) (L : list (N * N)) : Prop := SHOWS
  { s_ginv : ginv g;
    s_irr : forall a, ~ In (a, a) L;
    s_cnt : forall a b, zdef (gedge g a b) = (b2z (mem L a b) + b2z (mem L b a))%Z }.

Lemma links_shows : forall ops L, links_run [] ops = Some L ->
  exists rs g, graph_run graph_create ops = Ok (rs, g) /\ Forall (fun r => r = true) rs /\ shows g L.
Proof.
  intros ops L E. destruct (links_run_ok ops [] no_counts L linv_nil E) as (F & (Irr & Cnt) & R).
  destruct (run_ok ops graph_create no_counts ginv_create agrees_create F) as (g & Eg & G & A).
  exists (fst (count_run no_counts ops)), g. split; [assumption|]. split; [assumption|].
  constructor; auto. intros a b. destruct (N.eq_dec a b) as [->|Hab].
  - assert (mem L b b = false) as ->.
    { destruct (mem L b b) eqn:M; auto. apply mem_in in M. exfalso. now apply (Irr b). }
    unfold gedge. rewrite (c_irr _ (proj2 G)). reflexivity.
  - rewrite (A a b). auto.
Qed.

Lemma shows_link : forall g L, shows g L -> forall a b, glink g a b <-> usable L a b.
Proof.
  intros g L [G Irr Cnt] a b. rewrite glink_edge by assumption. unfold usable.
  rewrite <- !mem_in. pose proof (Cnt a b) as E. split.
  - intros Hq. rewrite Hq in E. cbn [zdef] in E.
    destruct (mem L a b), (mem L b a); cbn in E; try lia; auto.
  - intros (M1 & M2). rewrite M1, M2 in E. cbn in E.
    destruct (gedge g a b) as [n|]; cbn in E; [now subst | lia].
Qed.

Lemma shows_nb : forall g L, shows g L -> forall a b,
  nb_of g a b <-> In (a, b) L \/ In (b, a) L.
Proof.
  intros g L [G Irr Cnt] a b. unfold nb_of. rewrite <- !mem_in. pose proof (Cnt a b) as E. split.
  - intros Hq. destruct (gedge g a b) as [n|] eqn:En; [|congruence]. cbn in E.
    assert (1 <= n)%Z by (apply (c_pos _ (proj2 G) a b); exact En).
    destruct (mem L a b), (mem L b a); cbn in E; auto. lia.
  - intros Hq Hn. rewrite Hn in E. cbn in E.
    destruct Hq as [Hq|Hq]; rewrite Hq in E; [destruct (mem L b a) | destruct (mem L a b)]; cbn in E; lia.
Qed.

Lemma shows_node : forall g L, shows g L -> forall a,
  (exists v, In v (gvs g) /\ vaddr v = a) <-> exists b, In (a, b) L \/ In (b, a) L.
Proof.
  intros g L Sh a. pose proof (s_ginv _ _ Sh) as (W & I). split.
  - intros (v & Hv & Hva).
    assert (F : find_vertex g a = Some v) by (apply find_vertex_iff; auto).
    destruct (vedges v) as [|e es] eqn:Ev.
    + exfalso. apply (c_ne _ I a). rewrite clean_assoc, F by assumption. cbn. now rewrite Ev.
    + exists (addr_of g (enb e)). apply (shows_nb g L Sh).
      unfold nb_of, gedge, edge_of. rewrite clean_assoc, F by assumption. cbn [option_map]. rewrite Ev. cbn.
      rewrite N.eqb_refl. discriminate.
  - intros (b & Hb). apply (shows_nb g L Sh) in Hb. unfold nb_of, gedge, edge_of in Hb.
    rewrite clean_assoc in Hb by assumption. destruct (find_vertex g a) as [v|] eqn:F; [|exfalso; now apply Hb].
    exists v. now apply find_vertex_iff in F.
Qed.

Lemma shows_small : forall g L, shows g L ->
  length (gvs g) <= 2 * length L.
Proof.
  intros g L Sh. pose proof (s_ginv _ _ Sh) as (W & I).
  assert (Hl : length (map vaddr (gvs g)) <= length (map fst L ++ map snd L)).
  { apply NoDup_incl_length.
    - apply sorted_nodup, (p_sorted g W).
    - intros a Ha. apply in_map_iff in Ha as (v & Hva & Hv).
      assert (Hn : exists v, In v (gvs g) /\ vaddr v = a) by eauto.
      apply (shows_node g L Sh) in Hn as (b & [Hb|Hb]); apply in_or_app.
      + left. apply in_map_iff. exists (a, b). auto.
      + right. apply in_map_iff. exists (b, a). auto. }
  rewrite app_length, !map_length in Hl. lia.
Qed.

(* ---- Equivalent links ---- *)

Section Ext.
  Variables l1 l2 : N -> N -> Prop.
  Hypothesis E : forall a b, l1 a b <-> l2 a b.

  Lemma walk_ext1 : forall a b n, walk l1 a b n -> walk l2 a b n.
  Proof. induction 1; [constructor|]. econstructor; eauto. now apply E. Qed.
End Ext.

Lemma walk_ext : forall l1 l2, (forall a b, l1 a b <-> l2 a b) ->
  forall a b n, walk l1 a b n <-> walk l2 a b n.
Proof.
  intros l1 l2 E a b n. split; apply walk_ext1; auto. intros; now rewrite E.
Qed.

Lemma distance_ext : forall l1 l2, (forall a b, l1 a b <-> l2 a b) ->
  forall a b n, distance l1 a b n <-> distance l2 a b n.
Proof.
  intros l1 l2 E a b n. unfold distance. rewrite (walk_ext l1 l2 E).
  split; intros (H1 & H2); (split; [assumption|]); intros m Hm; apply H2; now apply (walk_ext l1 l2 E).
Qed.

Lemma reachable_ext : forall l1 l2, (forall a b, l1 a b <-> l2 a b) ->
  forall a b, reachable l1 a b <-> reachable l2 a b.
Proof.
  intros l1 l2 E a b. unfold reachable.
  split; intros (n & Hn); exists n; now apply (walk_ext l1 l2 E).
Qed.

(* More neighbours than the arrays hold. *)
Lemma lfa_nbs_ub : forall g, ginv g -> (Z.of_nat (length (gvs g)) + 1 < INT_MAX)%Z ->
  forall es i, (forall e, In e es -> In (enb e) (ids g)) ->
  (0 <= i <= PROG_MAX_FLOWS)%Z -> (PROG_MAX_FLOWS < i + Z.of_nat (length es))%Z ->
  lfa_nbs g i es = UB.
Proof.
  intros g G Sm. induction es as [|e es IH]; intros i He Hi Hl; cbn [length] in Hl; [lia|].
  cbn [lfa_nbs]. destruct (Z.leb_spec PROG_MAX_FLOWS i) as [L|L]; [reflexivity|].
  destruct (deref_in g (proj1 G) (enb e)) as (w & ->). { apply He; now left. }
  cbn [lift rbind]. destruct (dijkstra_dist g G Sm (vaddr w)) as (dist & nh & -> & _). cbn [rbind].
  rewrite IH; [reflexivity | intros; apply He; now right | lia | lia].
Qed.
