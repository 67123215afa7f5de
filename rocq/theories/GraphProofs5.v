(* The routing tables. *)

From Coq Require Import NArith ZArith List Bool Lia Sorted Arith.
From Coq Require Import ZifyBool ZifyNat ZifyN.
From Verif Require Import GraphModel GraphSpec GraphProofs GraphProofs2 GraphProofs3 GraphProofs4.
Import ListNotations.

Lemma glink_edge : forall g, ginv g -> forall a b, glink g a b <-> gedge g a b = Some 2%Z.
Proof.
  intros g [W I] a b. unfold gedge, edge_of. split.
  - intros (v & e & w & H1 & H2 & H3 & H4 & H5 & H6).
    assert (F : find_vertex g a = Some v) by (apply find_vertex_iff; auto).
    rewrite clean_assoc, F by assumption. cbn [option_map].
    apply in_assoc.
    + apply (c_nd _ I a). rewrite clean_assoc, F by assumption. reflexivity.
    + unfold clean_edges. replace b with (addr_of g (enb e)) by (unfold addr_of; now rewrite H5).
      rewrite <- H4. now apply in_map with (f := fun e => (addr_of g (enb e), eann e)).
  - rewrite clean_assoc by assumption. destruct (find_vertex g a) as [v|] eqn:F; [|discriminate].
    cbn [option_map]. intros Ha. apply assoc_in in Ha. unfold clean_edges in Ha.
    apply in_map_iff in Ha as (e & He & Hin). apply find_vertex_iff in F as (Hv & Hva); auto.
    assert (E1 : addr_of g (enb e) = b) by congruence. assert (E2 : eann e = 2%Z) by congruence.
    destruct (deref_in g W (enb e)) as (w & Hw). { now apply (p_nb g W v). }
    exists v, e, w. split; [assumption|]. split; [assumption|]. split; [assumption|].
    split; [assumption|]. split; [assumption|]. unfold addr_of in E1. now rewrite Hw in E1.
Qed.

Lemma glink_sym : forall g, ginv g -> forall a b, glink g a b -> glink g b a.
Proof.
  intros g G a b H. apply glink_edge in H; auto. apply glink_edge; auto.
  destruct G as [W I]. unfold gedge in *. now rewrite (c_sym _ I).
Qed.

Lemma glink_irr : forall g, ginv g -> forall a, ~ glink g a a.
Proof.
  intros g G a H. apply glink_edge in H; auto. destruct G as [W I]. unfold gedge in H.
  rewrite (c_irr _ I) in H. discriminate.
Qed.

Lemma glink_in : forall g, ginv g -> forall a b, glink g a b ->
  (exists v, In v (gvs g) /\ vaddr v = a) /\ (exists v, In v (gvs g) /\ vaddr v = b).
Proof.
  intros g G a b H. split.
  - destruct H as (v & e & w & H1 & H2 & _). eauto.
  - apply glink_sym in H; auto. destruct H as (v & e & w & H1 & H2 & _). eauto.
Qed.

(* A node reachable over a link is in the graph. *)
Lemma walk_in : forall g, ginv g -> forall a b n, walk (glink g) a b n -> n <> 0 ->
  (exists v, In v (gvs g) /\ vaddr v = a) /\ exists v, In v (gvs g) /\ vaddr v = b.
Proof.
  intros g G a b n H Hn. split.
  - destruct H as [|a x b n H1 H2]; [lia|]. now apply (glink_in g G) in H1.
  - destruct n as [|n]; [lia|]. apply walk_snoc_inv in H as (x & _ & H). now apply (glink_in g G) in H.
Qed.

Section Tables.

  Variable g : graph.
  Hypothesis G : ginv g.
  Hypothesis Small : (Z.of_nat (length (gvs g)) + 1 < INT_MAX)%Z.

  Let W : wfp g := proj1 G.
  Notation lk := (glink g).

  (* ---- Simple ---- *)

  Definition entry (nhops : list (option N)) (v : vertex) : list (N * list N) :=
    match H nhops v with
    | Some id => [(vaddr v, [addr_of g id])]
    | None => []
    end.

  Lemma table_loop_ok : forall nhops, length nhops = length (gvs g) ->
    (forall v id, In v (gvs g) -> H nhops v = Some id -> In id (ids g)) ->
    forall post pre table, gvs g = pre ++ post ->
    table_loop g nhops (Z.of_nat (length pre)) post table =
    Ok (rev (flat_map (entry nhops) post) ++ table).
  Proof.
    intros nhops L Hid. induction post as [|v post IH]; intros pre table E; [reflexivity|].
    assert (Hv : In v (gvs g)) by (rewrite E; apply in_or_app; right; now left).
    assert (Ev : vindex v = Z.of_nat (length pre)).
    { apply (p_index g W). rewrite E, nth_error_app2, Nat.sub_diag by lia. reflexivity. }
    assert (E' : gvs g = (pre ++ [v]) ++ post) by (rewrite <- app_assoc; exact E).
    assert (El : (vindex v + 1)%Z = Z.of_nat (length (pre ++ [v]))) by (rewrite app_length; cbn; lia).
    cbn [table_loop flat_map]. rewrite <- Ev, (get_H g W) by assumption. cbn [rbind].
    unfold entry at 1. destruct (H nhops v) as [id|] eqn:Eh.
    - destruct (deref_in g W id) as (w & Hw). { now apply (Hid v). }
      rewrite Hw. cbn [lift rbind]. rewrite El, (IH (pre ++ [v])) by assumption.
      rewrite rev_app_distr. cbn [rev app]. rewrite <- app_assoc. cbn [app].
      unfold addr_of. rewrite Hw. reflexivity.
    - rewrite El, (IH (pre ++ [v])) by assumption. reflexivity.
  Qed.

  Lemma flat_entry_in : forall nhops vs d hs,
    In (d, hs) (flat_map (entry nhops) vs) <->
    exists v id, In v vs /\ vaddr v = d /\ H nhops v = Some id /\ hs = [addr_of g id].
  Proof.
    intros nhops vs d hs. rewrite in_flat_map. split.
    - intros (v & Hv & Hin). unfold entry in Hin. destruct (H nhops v) as [id|] eqn:E; [|destruct Hin].
      destruct Hin as [Hq|[]]. exists v, id. split; [assumption|]. split; [congruence|]. split; [assumption|]. congruence.
    - intros (v & id & Hv & <- & E & ->). exists v. split; [assumption|]. unfold entry. rewrite E. now left.
  Qed.

  Lemma flat_entry_keys : forall nhops vs, NoDup (map vaddr vs) ->
    NoDup (map fst (flat_map (entry nhops) vs)).
  Proof.
    intros nhops. induction vs as [|v vs IH]; intros Hn; cbn [flat_map map]; [constructor|].
    cbn [map] in Hn. inversion Hn as [|? ? H1 H2]; subst.
    unfold entry at 1. destruct (H nhops v) as [id|]; [|now apply IH].
    cbn [app map fst]. constructor; [|now apply IH].
    intros Hi. apply H1. apply in_map_iff in Hi as ((d & hs) & Hd & Hi).
    apply flat_entry_in in Hi as (w & id' & Hw & Hwd & _). cbn in Hd. rewrite <- Hd, <- Hwd. now apply in_map.
  Qed.

  Lemma NoDup_rev' : forall (A : Type) (l : list A), NoDup l -> NoDup (rev l).
  Proof. intros. now apply NoDup_rev. Qed.

  (* What a table of the simple policy contains. *)
  Definition simple_table (s : N) (t : list (N * list N)) : Prop :=
    NoDup (map fst t) /\
    (forall d, In d (map fst t) <-> d <> s /\ reachable lk s d) /\
    (forall d hs, In (d, hs) t -> exists h n, hs = [h] /\ lk s h /\
       distance lk s d (S n) /\ distance lk h d n).

  Definition dist_ok (s : N) (dist : list Z) : Prop :=
    length dist = length (gvs g) /\
    forall v, In v (gvs g) ->
      (D dist v = INT_MAX /\ ~ reachable lk s (vaddr v)) \/
      (exists k, D dist v = Z.of_nat k /\ (D dist v <= Z.of_nat (length (gvs g)))%Z /\ distance lk s (vaddr v) k).

  Lemma dijkstra_dist : forall s, exists dist nhops, dijkstra g s = Ok (dist, nhops) /\ dist_ok s dist.
  Proof.
    intros s. destruct (dijkstra_ok g W Small s) as (dist & nhops & E & Ld & Ln & R).
    exists dist, nhops. split; [assumption|]. split; [assumption|].
    intros v Hv. destruct (R v Hv) as [(H1 & H2 & H3)|[(H1 & H2 & H3 & H4)|(H1 & k & w & H2 & H3 & H4 & H5 & H6 & H7 & H8)]].
    - right. exists 0. rewrite H2. split; [reflexivity|]. split; [lia|].
      rewrite H1. split; [constructor|]. intros; lia.
    - left. auto.
    - right. exists (S k). auto.
  Qed.

  Lemma simple_ok : forall s,
    match routing_table_simple g s with
    | Ok (t, dist) => simple_table s t /\ dist_ok s dist
    | Err => forall d, d <> s -> ~ reachable lk s d
    | UB => False
    end.
  Proof.
    intros s. unfold routing_table_simple. rewrite (p_nr g W).
    destruct (Z.ltb_spec (Z.of_nat (length (gvs g))) 2) as [L|L].
    - intros d Hd (n & Hw). destruct n as [|n]; [inversion Hw; subst; contradiction|].
      apply (walk_in g G) in Hw as ((v & Hv & Hva) & (w & Hw & Hwa)); [|lia].
      assert (v = w); [|congruence].
      destruct (gvs g) as [|x [|y l]]; cbn in *; [contradiction | | lia].
      destruct Hv as [->|[]], Hw as [->|[]]. reflexivity.
    - destruct (dijkstra_ok g W Small s) as (dist & nhops & E & Ld & Ln & R).
      rewrite E. cbn [rbind].
      rewrite (table_loop_ok nhops Ln) with (pre := []) (post := gvs g); [|intros v id Hv Hh|reflexivity].
      2:{ destruct (R v Hv) as [(H1 & H2 & H3)|[(H1 & H2 & H3 & H4)|(H1 & k & w & H2 & H3 & H4 & H5 & H6 & H7 & H8)]];
            try congruence. assert (id = vid w) as -> by congruence. now apply in_map. }
      cbn [rbind]. rewrite app_nil_r. split.
      + split; [|split].
        * rewrite map_rev. apply NoDup_rev. apply flat_entry_keys. apply sorted_nodup, (p_sorted g W).
        * intros d. split.
          -- intros Hin. apply in_map_iff in Hin as ((d' & hs) & Hd & Hin). cbn in Hd. subst d'.
             rewrite <- in_rev in Hin. apply flat_entry_in in Hin as (v & id & Hv & Hva & Hh & _).
             destruct (R v Hv) as [(H1 & H2 & H3)|[(H1 & H2 & H3 & H4)|(H1 & k & w & H2 & H3 & H4 & H5 & H6 & H7 & H8)]];
               try congruence.
             split; [congruence|]. rewrite <- Hva. exists (S k). apply H7.
          -- intros (Hd & (n & Hw)).
             destruct n as [|n]; [inversion Hw; subst; contradiction|].
             pose proof Hw as Hw'. apply (walk_in g G) in Hw' as (_ & (v & Hv & Hva)); [|lia].
             destruct (R v Hv) as [(H1 & H2 & H3)|[(H1 & H2 & H3 & H4)|(H1 & k & w & H2 & H3 & H4 & H5 & H6 & H7 & H8)]].
             ++ congruence.
             ++ exfalso. apply H4. rewrite Hva. exists (S n). assumption.
             ++ apply in_map_iff. exists (d, [addr_of g (vid w)]). split; [reflexivity|].
                rewrite <- in_rev. apply flat_entry_in. exists v, (vid w). auto.
        * intros d hs Hin. rewrite <- in_rev in Hin. apply flat_entry_in in Hin as (v & id & Hv & Hva & Hh & ->).
          destruct (R v Hv) as [(H1 & H2 & H3)|[(H1 & H2 & H3 & H4)|(H1 & k & w & H2 & H3 & H4 & H5 & H6 & H7 & H8)]];
            try congruence.
          assert (id = vid w) as -> by congruence.
          exists (vaddr w), k. rewrite (addr_of_vid g W) by assumption. rewrite <- Hva. auto.
      + split; [assumption|]. intros v Hv.
        destruct (R v Hv) as [(H1 & H2 & H3)|[(H1 & H2 & H3 & H4)|(H1 & k & w & H2 & H3 & H4 & H5 & H6 & H7 & H8)]].
        * right. exists 0. rewrite H2. split; [reflexivity|]. split; [lia|].
          rewrite H1. split; [constructor|]. intros; lia.
        * left. auto.
        * right. exists (S k). auto.
  Qed.

  (* ---- Loop-free alternates ---- *)

  Lemma int_add_wrap : forall a b, exists z, int_add wrap a b = Ok z.
  Proof.
    intros a b. unfold int_add. destruct (_ && _); eexists; reflexivity.
  Qed.

  (* The sum as computed, for distances. *)
  Lemma int_add_dist : forall a b, (0 <= a <= INT_MAX)%Z -> (0 <= b <= INT_MAX)%Z ->
    exists z, int_add wrap a b = Ok z /\
      ((a + b <= INT_MAX)%Z /\ z = (a + b)%Z \/ (INT_MAX < a + b)%Z /\ (z < 0)%Z).
  Proof.
    intros a b Ha Hb. unfold int_add, wrap, INT_MAX in *.
    destruct (Z.leb_spec (a + b) 2147483647) as [L|L].
    - assert (L2 : Z.leb (- (2147483647) - 1) (a + b) = true) by lia. rewrite L2. cbn [andb].
      eexists. split; [reflexivity|]. left. auto.
    - cbn [andb]. eexists. split; [reflexivity|]. right. split; [lia|].
      assert (E : ((a + b + 2147483648) mod 4294967296 = a + b + 2147483648 - 4294967296)%Z).
      { symmetry. apply Z.mod_unique with (q := 1%Z); [left; lia | lia]. }
      rewrite E. lia.
  Qed.

  Definition nb_ok (n : lfa_nb) : Prop :=
    exists v, In v (gvs g) /\ l_addr n = vaddr v /\ l_index n = vindex v /\ dist_ok (vaddr v) (l_dist n).

  Lemma lfa_nbs_ok : forall es i, (forall e, In e es -> In (enb e) (ids g)) ->
    (0 <= i)%Z -> (i + Z.of_nat (length es) <= PROG_MAX_FLOWS)%Z ->
    exists l, lfa_nbs g i es = Ok l /\ map l_addr l = map (fun e => addr_of g (enb e)) es /\
      Forall nb_ok l.
  Proof.
    induction es as [|e es IH]; intros i He Hi Hl; cbn [lfa_nbs].
    - exists []. split; [reflexivity|]. split; [reflexivity | constructor].
    - cbn [length] in Hl. destruct (Z.leb_spec PROG_MAX_FLOWS i) as [L|L]; [lia|].
      destruct (deref_in g W (enb e)) as (w & Hw). { apply He; now left. }
      rewrite Hw. cbn [lift rbind].
      destruct (dijkstra_dist (vaddr w)) as (dist & nh & -> & Hd). cbn [rbind].
      destruct (IH (i + 1)%Z) as (l & -> & E & F); [intros; apply He; now right | lia | lia |].
      cbn [rbind]. eexists. split; [reflexivity|]. split.
      + cbn [map l_addr]. rewrite E. f_equal. unfold addr_of. now rewrite Hw.
      + constructor; [|assumption]. exists w. apply deref_iff in Hw as (Hwi & _); auto.
  Qed.

  (* Node a is an alternate of s for d: a shortest walk from a to d is
     shorter than every walk through s. *)
  Definition closer (s a d : N) : Prop :=
    exists k, distance lk a d k /\ reachable lk s a /\ reachable lk s d /\
      (forall m1 m2, walk lk a s m1 -> walk lk s d m2 -> k < m1 + m2).

  Definition alt_b (dist : list Z) (v : vertex) (n : lfa_nb) : bool :=
    negb (N.eqb (l_addr n) (vaddr v)) &&
    match rbind (aget (l_dist n) (vindex v)) (fun nd =>
          rbind (aget dist (l_index n)) (fun dn =>
          rbind (aget dist (vindex v)) (fun dv =>
          rbind (int_add wrap dn dv) (fun sum => Ok (Z.ltb nd sum))))) with
    | Ok b => b
    | _ => false
    end.

  Lemma alt_b_ok : forall s dist v n, dist_ok s dist -> In v (gvs g) -> nb_ok n ->
    vaddr v <> s -> l_addr n <> s ->
    exists nd dn dv sum, aget (l_dist n) (vindex v) = Ok nd /\ aget dist (l_index n) = Ok dn /\
      aget dist (vindex v) = Ok dv /\ int_add wrap dn dv = Ok sum /\
      alt_b dist v n = negb (N.eqb (l_addr n) (vaddr v)) && Z.ltb nd sum /\
      (Z.ltb nd sum = true -> closer s (l_addr n) (vaddr v)) /\
      ((2 * Z.of_nat (length (gvs g)) < INT_MAX)%Z -> closer s (l_addr n) (vaddr v) -> Z.ltb nd sum = true).
  Proof.
    intros s dist v n (Ld & Hd) Hv (u & Hu & Ea & Ei & (Lu & Hdu)) Hvs Hns.
    exists (D (l_dist n) v), (D dist u), (D dist v).
    rewrite (get_D g W (l_dist n) v) by assumption. rewrite Ei, (get_D g W dist u) by assumption.
    rewrite (get_D g W dist v) by assumption.
    assert (Hmax : (0 <= D dist u <= INT_MAX)%Z /\ (0 <= D dist v <= INT_MAX)%Z).
    { split; [destruct (Hd u Hu) as [(E & _)|(k & E & L & _)] | destruct (Hd v Hv) as [(E & _)|(k & E & L & _)]];
        rewrite E in *; unfold INT_MAX in *; lia. }
    destruct Hmax as (Mu & Mv).
    destruct (int_add_dist (D dist u) (D dist v) Mu Mv) as (sum & Es & Hs).
    exists sum. split; [reflexivity|]. split; [reflexivity|]. split; [reflexivity|]. split; [assumption|].
    split.
    { unfold alt_b. rewrite (get_D g W (l_dist n) v) by assumption. rewrite Ei, (get_D g W dist u) by assumption.
      rewrite (get_D g W dist v) by assumption. cbn [rbind]. rewrite Es. reflexivity. }
    assert (Hnd : (0 <= D (l_dist n) v)%Z).
    { destruct (Hdu v Hv) as [(E & _)|(k & E & _)]; rewrite E; unfold INT_MAX; lia. }
    split.
    - intros Hlt. apply Z.ltb_lt in Hlt. destruct Hs as [(Hs1 & ->)|(Hs1 & Hs2)]; [|lia].
      destruct (Hd u Hu) as [(E & _)|(ku & Eu & Lu' & Du)].
      { exfalso. destruct (Hd v Hv) as [(E2 & _)|(kv & Ev & Lv & Dv)]; [unfold INT_MAX in *; lia|].
        assert (kv = 0) by lia. subst kv. destruct Dv as (Dv & _). inversion Dv; subst. contradiction. }
      destruct (Hd v Hv) as [(E2 & _)|(kv & Ev & Lv & Dv)].
      { exfalso. assert (ku = 0) by lia. subst ku. destruct Du as (Du & _). inversion Du. congruence. }
      destruct (Hdu v Hv) as [(E3 & _)|(k & Ek & Lk & Dk)]; [lia|].
      exists k. rewrite Ea. split; [assumption|]. split; [eexists; apply Du|]. split; [eexists; apply Dv|].
      intros m1 m2 H1 H2. apply (walk_rev lk (glink_sym g G)) in H1.
      apply Du in H1. apply Dv in H2. lia.
    - intros Hsmall (k & Dk & (k1 & R1) & (k2 & R2) & Hc). apply Z.ltb_lt. rewrite Ea in *.
      destruct (Hd u Hu) as [(E & Nr)|(ku & Eu & Lu' & Du)]; [exfalso; apply Nr; eexists; eassumption|].
      destruct (Hd v Hv) as [(E & Nr)|(kv & Ev & Lv & Dv)]; [exfalso; apply Nr; eexists; eassumption|].
      destruct (Hdu v Hv) as [(E3 & Nr)|(k' & Ek & Lk & Dk')]; [exfalso; apply Nr; eexists; apply Dk|].
      assert (k' = k) by (eapply distance_fun; eauto). subst k'.
      assert (k < ku + kv).
      { apply Hc; [apply (walk_rev lk (glink_sym g G)); apply Du | apply Dv]. }
      destruct Hs as [(Hs1 & ->)|(Hs1 & Hs2)]; [lia|]. exfalso.
      lia.
  Qed.

  Definition app_alts (t : list (N * list N)) (d : N) (l : list N) : list (N * list N) :=
    map (fun p => if N.eqb (fst p) d then (fst p, snd p ++ l) else p) t.

  Lemma app_alts_keys : forall t d l, map fst (app_alts t d l) = map fst t.
  Proof.
    intros. unfold app_alts. rewrite map_map. apply map_ext. intros [x hs]. cbn.
    destruct (N.eqb x d); reflexivity.
  Qed.

  Lemma app_alts_nil : forall t d, app_alts t d [] = t.
  Proof.
    intros t d. unfold app_alts. rewrite <- (map_id t) at 2. apply map_ext. intros [x hs]. cbn.
    destruct (N.eqb x d); [now rewrite app_nil_r | reflexivity].
  Qed.

  Lemma app_alts_absent : forall t d l, ~ In d (map fst t) -> app_alts t d l = t.
  Proof.
    intros t d l Hn. unfold app_alts. rewrite <- (map_id t) at 2. apply map_ext_in. intros [x hs] Hi. cbn.
    destruct (N.eqb_spec x d) as [E|E]; [|reflexivity].
    exfalso. apply Hn. rewrite <- E. apply in_map_iff. exists (x, hs). auto.
  Qed.

  Lemma app_alts_app : forall t d l1 l2, app_alts (app_alts t d l1) d l2 = app_alts t d (l1 ++ l2).
  Proof.
    intros. unfold app_alts. rewrite map_map. apply map_ext. intros [x hs]. cbn.
    destruct (N.eqb x d) eqn:E; cbn; rewrite E; [now rewrite app_assoc | reflexivity].
  Qed.

  Lemma add_lfa_ok : forall t d a, NoDup (map fst t) -> In d (map fst t) ->
    add_lfa t d a = Ok (app_alts t d [a]).
  Proof.
    induction t as [|[x hs] t IH]; intros d a Hn Hi; [destruct Hi|].
    cbn [map fst] in *. inversion Hn as [|? ? H1 H2]; subst. cbn [add_lfa app_alts map fst snd].
    destruct (N.eqb_spec x d) as [E|E].
    - subst d. do 2 f_equal. symmetry. now apply app_alts_absent.
    - destruct Hi as [Hi|Hi]; [contradiction|]. rewrite (IH d a H2 Hi). reflexivity.
  Qed.

  Section Lfa.
    Variable s : N.
    Variable dist : list Z.
    Hypothesis Hdist : dist_ok s dist.
    Variable l : list lfa_nb.
    Hypothesis Hl : Forall nb_ok l.
    Hypothesis Hls : forall x, In x l -> l_addr x <> s.

    Definition alts_of (v : vertex) : list N := map l_addr (filter (alt_b dist v) l).

    Lemma lfa_dest_ok : forall v, In v (gvs g) -> vaddr v <> s ->
      forall l' t, (forall x, In x l' -> In x l) -> NoDup (map fst t) ->
      (reachable lk s (vaddr v) -> In (vaddr v) (map fst t)) ->
      lfa_dest wrap dist v l' t = Ok (app_alts t (vaddr v) (map l_addr (filter (alt_b dist v) l'))).
    Proof.
      intros v Hv Hvs. induction l' as [|x l' IH]; intros t Hin Hnd Hr; cbn [lfa_dest filter].
      - cbn [map]. now rewrite app_alts_nil.
      - assert (Hx : In x l) by (apply Hin; now left).
        assert (Hin' : forall y, In y l' -> In y l) by (intros; apply Hin; now right).
        pose proof (proj1 (Forall_forall _ _) Hl x Hx) as Hnb.
        destruct (alt_b_ok s dist v x Hdist Hv Hnb Hvs (Hls x Hx))
          as (nd & dn & dv & sum & E1 & E2 & E3 & E4 & E5 & E6 & _).
        rewrite E5. destruct (N.eqb (l_addr x) (vaddr v)); cbn [negb andb]; [now apply IH|].
        rewrite E1, E2, E3. cbn [rbind]. rewrite E4. cbn [rbind].
        destruct (Z.ltb nd sum).
        + destruct (E6 eq_refl) as (k & _ & _ & Hrd & _).
          rewrite add_lfa_ok by auto. cbn [rbind].
          rewrite IH; auto.
          * cbn [map]. rewrite app_alts_app. reflexivity.
          * now rewrite app_alts_keys.
          * rewrite app_alts_keys. assumption.
        + now apply IH.
    Qed.

    Definition alts_at (vs : list vertex) (d : N) : list N :=
      match find (fun v => N.eqb (vaddr v) d) vs with
      | Some v => alts_of v
      | None => []
      end.

    Lemma lfa_dests_ok : forall vs t, (forall v, In v vs -> In v (gvs g)) -> NoDup (map vaddr vs) ->
      NoDup (map fst t) -> ~ In s (map fst t) ->
      (forall d, reachable lk s d -> d <> s -> In d (map fst t)) ->
      lfa_dests wrap s dist l vs t =
      Ok (map (fun p => (fst p, snd p ++ alts_at vs (fst p))) t).
    Proof.
      induction vs as [|v vs IH]; intros t Hvs Hnv Hnd Hs Hr; cbn [lfa_dests].
      - f_equal. rewrite <- (map_id t) at 1. apply map_ext. intros [x hs]. cbn. now rewrite app_nil_r.
      - cbn [map] in Hnv. inversion Hnv as [|? ? H1 H2]; subst.
        assert (Hvs' : forall w, In w vs -> In w (gvs g)) by (intros; apply Hvs; now right).
        assert (Hat : forall d, d <> vaddr v -> alts_at (v :: vs) d = alts_at vs d).
        { intros d Hd. unfold alts_at. cbn [find]. destruct (N.eqb_spec (vaddr v) d); [congruence | reflexivity]. }
        destruct (N.eqb_spec (vaddr v) s) as [E|E].
        + rewrite IH by assumption. f_equal. apply map_ext_in. intros [x hs] Hi. cbn [fst snd].
          rewrite Hat; [reflexivity|]. rewrite E. intros ->. apply Hs. apply in_map_iff. exists (s, hs). auto.
        + rewrite (lfa_dest_ok v); auto.
          * cbn [rbind]. rewrite IH; try rewrite app_alts_keys; auto.
            f_equal. unfold app_alts. rewrite map_map. apply map_ext. intros [x hs]. cbn [fst snd].
            destruct (N.eqb_spec x (vaddr v)) as [Ex|Ex]; cbn [fst snd].
            -- unfold alts_at at 2. cbn [find]. rewrite Ex, N.eqb_refl.
               assert (Hn : alts_at vs (vaddr v) = []).
               { unfold alts_at. destruct (find _ vs) as [w|] eqn:F; [|reflexivity].
                 apply find_some in F as (F1 & F2). apply N.eqb_eq in F2.
                 exfalso. apply H1. rewrite <- F2. now apply in_map. }
               rewrite Hn, app_nil_r. reflexivity.
            -- now rewrite Hat.
          * apply Hvs; now left.
    Qed.

  End Lfa.

  (* Whether the graph has an edge, announced once or twice. *)
  Definition nb_of (s a : N) : Prop := gedge g s a <> None.

  Lemma nb_of_edges : forall s v, find_vertex g s = Some v ->
    forall a, nb_of s a <-> In a (map (fun e => addr_of g (enb e)) (vedges v)).
  Proof.
    intros s v F a. unfold nb_of, gedge, edge_of. rewrite clean_assoc, F by exact W. cbn [option_map].
    rewrite assoc_none_keys. unfold clean_edges. rewrite map_map. cbn [fst].
    split; [|tauto]. intros H. destruct (in_dec N.eq_dec a (map (fun e => addr_of g (enb e)) (vedges v))); tauto.
  Qed.

  Lemma nb_of_irr : forall s, ~ nb_of s s.
  Proof. intros s H. apply H. apply (c_irr _ (proj2 G)). Qed.

  (* The table of the loop-free-alternate policy, from the simple one. *)
  Definition lfa_table (s : N) (t t' : list (N * list N)) : Prop :=
    map fst t' = map fst t /\
    forall d hs, In (d, hs) t' -> exists h alts, hs = h :: alts /\ In (d, [h]) t /\
      (forall a, In a alts -> nb_of s a /\ a <> d /\ closer s a d) /\
      ((2 * Z.of_nat (length (gvs g)) < INT_MAX)%Z ->
       forall a, nb_of s a -> a <> d -> closer s a d -> In a alts).

  Lemma lfa_ok : forall s,
    (forall v, find_vertex g s = Some v -> (Z.of_nat (length (vedges v)) <= PROG_MAX_FLOWS)%Z) ->
    match routing_table_lfa wrap g s with
    | Ok (t', dist) => exists t, simple_table s t /\ routing_table_simple g s = Ok (t, dist) /\ lfa_table s t t'
    | Err => forall d, d <> s -> ~ reachable lk s d
    | UB => False
    end.
  Proof.
    intros s Hdeg. unfold routing_table_lfa. pose proof (simple_ok s) as So.
    destruct (routing_table_simple g s) as [[t dist]| |] eqn:Es; cbn [rbind]; auto.
    destruct So as (Ht & Hd).
    pose proof Ht as (Hnd & Hkeys & Hent).
    assert (Hnl : exists l, match find_vertex g s with Some v => lfa_nbs g 0 (vedges v) | None => Ok [] end = Ok l /\
       Forall nb_ok l /\ (forall x, In x l -> nb_of s (l_addr x)) /\
       (forall a, nb_of s a -> In a (map l_addr l))).
    { destruct (find_vertex g s) as [v|] eqn:F.
      - destruct (lfa_nbs_ok (vedges v) 0) as (l & -> & E & Fl).
        + intros e He. apply (p_nb g W v); auto. now apply (find_vertex_iff g W) in F.
        + lia.
        + specialize (Hdeg v eq_refl). lia.
        + exists l. split; [reflexivity|]. split; [assumption|]. split.
          * intros x Hx. apply (nb_of_edges s v F). rewrite <- E. now apply in_map.
          * intros a Ha. apply (nb_of_edges s v F) in Ha. now rewrite <- E in Ha.
      - exists []. split; [reflexivity|]. split; [constructor|]. split; [intros x []|].
        intros a Ha. exfalso. apply Ha. unfold gedge, edge_of. rewrite clean_assoc, F by exact W. reflexivity. }
    destruct Hnl as (l & -> & Hl & Hl1 & Hl2). cbn [rbind].
    assert (Hls : forall x, In x l -> l_addr x <> s).
    { intros x Hx Hq. apply Hl1 in Hx. rewrite Hq in Hx. now apply (nb_of_irr s). }
    rewrite (lfa_dests_ok s dist Hd l Hl Hls); auto.
    2:{ apply sorted_nodup, (p_sorted g W). }
    2:{ intros Hi. apply Hkeys in Hi. tauto. }
    2:{ intros d Hr Hds. apply Hkeys. auto. }
    cbn [rbind]. exists t. split; [assumption|]. split; [reflexivity|]. split.
    { rewrite map_map. cbn [fst]. reflexivity. }
    intros d hs Hin. apply in_map_iff in Hin as ((d' & hs0) & Hq & Hin). cbn [fst snd] in Hq.
    assert (d' = d) by congruence. subst d'.
    assert (Ehs : hs = hs0 ++ alts_at dist l (gvs g) d) by congruence. clear Hq.
    destruct (Hent d hs0 Hin) as (h & k & Eh & Hlk & Hd1 & Hd2).
    exists h, (alts_at dist l (gvs g) d). subst hs0. split; [assumption|]. split; [assumption|].
    assert (Hds : d <> s). { apply Hkeys. apply in_map_iff. exists (d, [h]). auto. }
    assert (Hdg : exists v, In v (gvs g) /\ vaddr v = d).
    { destruct Hd1 as (Hw & _). apply (walk_in g G) in Hw as (_ & Hw); [assumption | lia]. }
    destruct Hdg as (v & Hv & Hva).
    assert (Fv : find (fun v => N.eqb (vaddr v) d) (gvs g) = Some v).
    { apply (find_vertex_iff g W d v). auto. }
    unfold alts_at. rewrite Fv. unfold alts_of.
    assert (Hvs : vaddr v <> s) by congruence.
    split.
    - intros a Ha. apply in_map_iff in Ha as (x & <- & Hx). apply filter_In in Hx as (Hx & Hb).
      destruct (alt_b_ok s dist v x Hd Hv (proj1 (Forall_forall _ _) Hl x Hx) Hvs (Hls x Hx))
          as (nd & dn & dv & sum & _ & _ & _ & _ & E5 & E6 & _).
      rewrite E5 in Hb. apply andb_true_iff in Hb as (Hb1 & Hb2).
      split; [auto|]. rewrite Hva in *. split; [|auto].
      intros Hq. rewrite Hq, N.eqb_refl in Hb1. discriminate.
    - intros Hsm a Ha Had Hc. apply Hl2 in Ha. apply in_map_iff in Ha as (x & Hxa & Hx).
      rewrite <- Hxa. apply in_map. apply filter_In. split; [assumption|].
      destruct (alt_b_ok s dist v x Hd Hv (proj1 (Forall_forall _ _) Hl x Hx) Hvs (Hls x Hx))
          as (nd & dn & dv & sum & _ & _ & _ & _ & E5 & _ & E7).
      rewrite E5. rewrite Hva, Hxa in *. rewrite (E7 Hsm Hc).
      destruct (N.eqb_spec a d); [contradiction | reflexivity].
  Qed.

  (* ---- Equal-cost multipath ---- *)

  Definition F (fwd : list (list N)) (v : vertex) : list N := nth (pos v) fwd [].

  Definition ec_b (dist tmp : list Z) (v : vertex) : bool :=
    match int_add wrap (D tmp v) 1 with Ok z => Z.eqb z (D dist v) | _ => false end.

  Lemma ec_b_iff : forall s a dist tmp v, dist_ok s dist -> dist_ok a tmp -> In v (gvs g) ->
    ec_b dist tmp v = true <-> exists k, distance lk a (vaddr v) k /\ distance lk s (vaddr v) (S k).
  Proof.
    intros s a dist tmp v (Ld & Hd) (Lt & Ht) Hv. unfold ec_b.
    assert (M1 : (0 <= 1 <= INT_MAX)%Z) by (unfold INT_MAX; lia).
    assert (Mt : (0 <= D tmp v <= INT_MAX)%Z).
    { destruct (Ht v Hv) as [(E & _)|(k & E & L & _)]; rewrite E in *; unfold INT_MAX in *; lia. }
    destruct (int_add_dist (D tmp v) 1 Mt M1) as (z & -> & Hz). rewrite Z.eqb_eq.
    destruct (Hd v Hv) as [(Ed & Nd)|(k & Ed & Lk & Dk)]; destruct (Ht v Hv) as [(Et & Nt)|(j & Et & Lj & Dj)].
    - split.
      + intros Hq. unfold INT_MAX in *. lia.
      + intros (k & _ & (Hw & _)). exfalso. apply Nd. eexists; eassumption.
    - split.
      + intros Hq. lia.
      + intros (k & _ & (Hw & _)). exfalso. apply Nd. eexists; eassumption.
    - split.
      + intros Hq. unfold INT_MAX in *. lia.
      + intros (k' & (Hw & _) & _). exfalso. apply Nt. eexists; eassumption.
    - split.
      + intros Hq. exists j. split; [assumption|]. destruct Hz as [(Hz1 & Hz2)|(Hz1 & Hz2)]; [|lia].
        replace (S j) with k by lia. assumption.
      + intros (i & Di & Ds). assert (i = j) by (eapply distance_fun; eauto). subst i.
        assert (k = S j) by (eapply distance_fun; eauto). lia.
  Qed.

  Lemma ecmp_nb_ok : forall nb dist tmp, length dist = length (gvs g) -> length tmp = length (gvs g) ->
    forall vs fwd, (forall v, In v vs -> In v (gvs g)) -> NoDup (map vid vs) ->
    length fwd = length (gvs g) ->
    exists fwd', ecmp_nb wrap nb dist tmp vs fwd = Ok fwd' /\ length fwd' = length (gvs g) /\
      forall v, In v (gvs g) -> F fwd' v = F fwd v ++
        (if existsb (fun w => N.eqb (vid w) (vid v)) vs && ec_b dist tmp v then [nb] else []).
  Proof.
    intros nb dist tmp Ld Lt. induction vs as [|x vs IH]; intros fwd Hin Hnd Lf; cbn [ecmp_nb].
    - exists fwd. split; [reflexivity|]. split; [assumption|]. intros v Hv. cbn. now rewrite app_nil_r.
    - cbn [map] in Hnd. inversion Hnd as [|? ? H1 H2]; subst.
      assert (Hx : In x (gvs g)) by (apply Hin; now left).
      assert (Hin' : forall v, In v vs -> In v (gvs g)) by (intros; apply Hin; now right).
      rewrite (get_D g W tmp x) by assumption. cbn [rbind].
      destruct (int_add_wrap (D tmp x) 1) as (z & Ez). rewrite Ez. cbn [rbind].
      rewrite (get_D g W dist x) by assumption. cbn [rbind].
      assert (Hxv : forall v, In v (gvs g) -> vid x = vid v -> x = v).
      { intros v Hv Hq. assert (A1 : deref g (vid v) = Some x) by (apply (deref_iff g W); auto).
        assert (A2 : deref g (vid v) = Some v) by (apply (deref_iff g W); auto). congruence. }
      assert (Hnx : existsb (fun w => N.eqb (vid w) (vid x)) vs = false).
      { destruct (existsb _ vs) eqn:Ex; [|reflexivity]. apply existsb_exists in Ex as (w & Hw & Hq).
        apply N.eqb_eq in Hq. exfalso. apply H1. rewrite <- Hq. now apply in_map. }
      assert (Eb : ec_b dist tmp x = Z.eqb z (D dist x)) by (unfold ec_b; now rewrite Ez).
      destruct (Z.eqb z (D dist x)) eqn:Ec.
      + assert (Ef : aget fwd (vindex x) = Ok (F fwd x)).
        { pose proof (pos_ok g W x Hx) as (_ & E & L). unfold F.
          rewrite aget_nth with (d := @nil N) by lia. reflexivity. }
        rewrite Ef. cbn [rbind]. rewrite (set_ok g W) by assumption. cbn [rbind].
        destruct (IH (set_nth (pos x) (F fwd x ++ [nb]) fwd)) as (fwd' & E & L' & P); auto.
        { now rewrite set_nth_length. }
        exists fwd'. split; [assumption|]. split; [assumption|]. intros v Hv.
        rewrite P by assumption. unfold F at 1. rewrite (set_get g W) by assumption.
        cbn [existsb]. rewrite (N.eqb_sym (vid x) (vid v)).
        destruct (N.eqb_spec (vid v) (vid x)) as [Eq|Eq].
        * assert (x = v) by (apply Hxv; auto). subst v. rewrite Hnx, Eb. cbn [orb andb]. now rewrite app_nil_r.
        * cbn [orb]. reflexivity.
      + destruct (IH fwd) as (fwd' & E & L' & P); auto.
        exists fwd'. split; [assumption|]. split; [assumption|]. intros v Hv. rewrite P by assumption.
        cbn [existsb]. destruct (N.eqb_spec (vid x) (vid v)) as [Eq|Eq]; [|reflexivity].
        assert (x = v) by (apply Hxv; auto). subst v. rewrite Hnx, Eb. reflexivity.
  Qed.

  (* Neighbour a is the first hop of a shortest walk. *)
  Definition on_shortest (s a d : N) : Prop :=
    exists k, distance lk a d k /\ distance lk s d (S k).

  Lemma ecmp_nbs_ok : forall s dist, dist_ok s dist ->
    forall es fwd, (forall e, In e es -> In (enb e) (ids g)) ->
    length fwd = length (gvs g) ->
    exists fwd', ecmp_nbs wrap g dist es fwd = Ok fwd' /\ length fwd' = length (gvs g) /\
      forall v, In v (gvs g) -> exists l, F fwd' v = F fwd v ++ l /\
        (forall a, In a l <-> In a (map (fun e => addr_of g (enb e)) es) /\ on_shortest s a (vaddr v)) /\
        (NoDup (map (fun e => addr_of g (enb e)) es) -> NoDup l).
  Proof.
    intros s dist Hd. induction es as [|e es IH]; intros fwd He Lf; cbn [ecmp_nbs].
    - exists fwd. split; [reflexivity|]. split; [assumption|]. intros v Hv. exists [].
      split; [now rewrite app_nil_r|]. split; [|intros; constructor]. cbn. tauto.
    - destruct (deref_in g W (enb e)) as (w & Hw). { apply He; now left. }
      rewrite Hw. cbn [lift rbind].
      assert (Ea : addr_of g (enb e) = vaddr w) by (unfold addr_of; now rewrite Hw).
      destruct (dijkstra_dist (vaddr w)) as (tmp & nh & -> & Ht). cbn [rbind].
      destruct (ecmp_nb_ok (vaddr w) dist tmp (proj1 Hd) (proj1 Ht) (gvs g) fwd) as (fwd1 & -> & L1 & P1);
        auto. { apply (p_ids g W). }
      cbn [rbind].
      destruct (IH fwd1) as (fwd2 & -> & L2 & P2); auto. { intros; apply He; now right. }
      exists fwd2. split; [reflexivity|]. split; [assumption|]. intros v Hv.
      destruct (P2 v Hv) as (l & El & Hl & Hnd).
      assert (Hex : existsb (fun w0 => N.eqb (vid w0) (vid v)) (gvs g) = true).
      { apply existsb_exists. exists v. split; [assumption | apply N.eqb_refl]. }
      rewrite (P1 v Hv), Hex in El. cbn [andb] in El.
      pose proof (ec_b_iff s (vaddr w) dist tmp v Hd Ht Hv) as Hb.
      exists ((if ec_b dist tmp v then [vaddr w] else []) ++ l).
      split; [now rewrite app_assoc|]. cbn [map]. rewrite Ea. split.
      + intros a. rewrite in_app_iff, Hl. cbn [In].
        destruct (ec_b dist tmp v).
        * split.
          -- intros [[<-|[]]|(H1 & H2)]; [|tauto]. split; [now left|]. now apply Hb.
          -- intros ([H1|H1] & H2); [left; now left | right; auto].
        * split.
          -- intros [[]|(H1 & H2)]. auto.
          -- intros ([H1|H1] & H2); [|auto]. subst a. apply Hb in H2. discriminate.
      + intros Hn. inversion Hn as [|? ? H1 H2]; subst.
        destruct (ec_b dist tmp v); cbn [app]; [|auto]. constructor; [|auto].
        intros Hq. apply Hl in Hq. tauto.
  Qed.

  Definition ec_entry (s : N) (fwd : list (list N)) (v : vertex) : list (N * list N) :=
    if N.eqb (vaddr v) s then [] else [(vaddr v, F fwd v)].

  Lemma ecmp_table_ok : forall s fwd, length fwd = length (gvs g) ->
    forall post pre table, gvs g = pre ++ post ->
    ecmp_table s fwd (Z.of_nat (length pre)) post table =
    Ok (rev (flat_map (ec_entry s fwd) post) ++ table).
  Proof.
    intros s fwd L. induction post as [|v post IH]; intros pre table E; [reflexivity|].
    assert (Hv : In v (gvs g)) by (rewrite E; apply in_or_app; right; now left).
    assert (Ev : vindex v = Z.of_nat (length pre)).
    { apply (p_index g W). rewrite E, nth_error_app2, Nat.sub_diag by lia. reflexivity. }
    assert (E' : gvs g = (pre ++ [v]) ++ post) by (rewrite <- app_assoc; exact E).
    assert (El : (vindex v + 1)%Z = Z.of_nat (length (pre ++ [v]))) by (rewrite app_length; cbn; lia).
    cbn [ecmp_table flat_map]. unfold ec_entry at 1. rewrite <- Ev.
    destruct (N.eqb (vaddr v) s).
    - rewrite El, (IH (pre ++ [v])) by assumption. reflexivity.
    - assert (Ef : aget fwd (vindex v) = Ok (F fwd v)).
      { pose proof (pos_ok g W v Hv) as (_ & E1 & L1). unfold F.
        rewrite aget_nth with (d := @nil N) by lia. reflexivity. }
      rewrite Ef. cbn [rbind]. rewrite El, (IH (pre ++ [v])) by assumption.
      rewrite rev_app_distr. cbn [rev app]. rewrite <- app_assoc. reflexivity.
  Qed.

  (* The table of the equal-cost multipath policy. *)
  Definition ecmp_spec (s : N) (t : list (N * list N)) : Prop :=
    NoDup (map fst t) /\
    (forall d, In d (map fst t) <-> d <> s /\ exists v, In v (gvs g) /\ vaddr v = d) /\
    (forall d hs, In (d, hs) t -> NoDup hs /\
       forall a, In a hs <-> nb_of s a /\ on_shortest s a d).

  Lemma ec_entry_in : forall s fwd vs d hs, In (d, hs) (flat_map (ec_entry s fwd) vs) <->
    exists v, In v vs /\ vaddr v = d /\ d <> s /\ hs = F fwd v.
  Proof.
    intros s fwd vs d hs. rewrite in_flat_map. split.
    - intros (v & Hv & Hi). unfold ec_entry in Hi. destruct (N.eqb_spec (vaddr v) s) as [E|E]; [destruct Hi|].
      destruct Hi as [Hq|[]]. exists v. split; [assumption|]. split; [congruence|]. split; congruence.
    - intros (v & Hv & <- & Hd & ->). exists v. split; [assumption|]. unfold ec_entry.
      destruct (N.eqb_spec (vaddr v) s); [contradiction | now left].
  Qed.

  Lemma ecmp_ok : forall s,
    match routing_table_ecmp wrap g s with
    | Ok t => ecmp_spec s t
    | Err => forall d, d <> s -> ~ reachable lk s d
    | UB => False
    end.
  Proof.
    intros s. unfold routing_table_ecmp. rewrite (p_nr g W).
    destruct (Z.ltb_spec (Z.of_nat (length (gvs g))) 2) as [L|L].
    { pose proof (simple_ok s) as So. unfold routing_table_simple in So. rewrite (p_nr g W) in So.
      destruct (Z.ltb_spec (Z.of_nat (length (gvs g))) 2); [assumption | lia]. }
    destruct (dijkstra_dist s) as (dist & nh & -> & Hd). cbn [rbind].
    destruct (find_vertex g s) as [v|] eqn:Fv.
    - pose proof (proj1 (find_vertex_iff g W s v) Fv) as (Hv & Hva).
      destruct (ecmp_nbs_ok s dist Hd (vedges v) (map (fun _ => []) (gvs g))) as (fwd & -> & Lf & P).
      { intros e He. now apply (p_nb g W v). } { apply map_length. }
      cbn [rbind]. pose proof (ecmp_table_ok s fwd Lf (gvs g) [] [] eq_refl) as Et.
      cbn [length Z.of_nat] in Et. rewrite Et.
      rewrite app_nil_r.
      assert (Hnd : NoDup (map (fun e => addr_of g (enb e)) (vedges v))).
      { replace (map (fun e => addr_of g (enb e)) (vedges v)) with (map fst (clean_edges g (vedges v))).
        - apply (c_nd _ (proj2 G) s). rewrite clean_assoc, Fv by exact W. reflexivity.
        - unfold clean_edges. rewrite map_map. reflexivity. }
      split; [|split].
      + rewrite map_rev. apply NoDup_rev.
        assert (Hs : NoDup (map vaddr (gvs g))) by (apply sorted_nodup, (p_sorted g W)).
        clear - Hs. revert Hs. generalize (gvs g) at 1 2 as vs. intros vs. induction vs as [|x vs IH]; intros Hs; cbn [flat_map map]; [constructor|].
        cbn [map] in Hs. inversion Hs as [|? ? H1 H2]; subst. unfold ec_entry at 1.
        destruct (N.eqb (vaddr x) s); [now apply IH|]. cbn [app map fst]. constructor; [|now apply IH].
        intros Hi. apply H1. apply in_map_iff in Hi as ((d & hs) & Hq & Hi).
        apply ec_entry_in in Hi as (y & Hy & Hyd & _). cbn in Hq. rewrite <- Hq, <- Hyd. now apply in_map.
      + intros d. split.
        * intros Hi. apply in_map_iff in Hi as ((d' & hs) & Hq & Hi). cbn in Hq. subst d'.
          rewrite <- in_rev in Hi. apply ec_entry_in in Hi as (y & Hy & Hyd & Hds & _). eauto.
        * intros (Hds & y & Hy & Hyd). apply in_map_iff. exists (d, F fwd y). split; [reflexivity|].
          rewrite <- in_rev. apply ec_entry_in. exists y. auto.
      + intros d hs Hi. rewrite <- in_rev in Hi. apply ec_entry_in in Hi as (y & Hy & Hyd & Hds & ->).
        destruct (P y Hy) as (l & El & Hl & Hln).
        assert (F0 : F (map (fun _ => []) (gvs g)) y = []).
        { pose proof (pos_ok g W y Hy) as (_ & _ & L1). unfold F. now apply const_nth. }
        rewrite F0 in El. cbn [app] in El. rewrite El. split; [auto|].
        intros a. rewrite Hl, Hyd. rewrite (nb_of_edges s v Fv). tauto.
    - intros d Hds (k & Hw). destruct k as [|k]; [inversion Hw; subst; contradiction|].
      apply (walk_in g G) in Hw as ((v & Hv & Hva) & _); [|lia].
      assert (find_vertex g s = Some v) by (apply (find_vertex_iff g W); auto). congruence.
  Qed.

End Tables.
