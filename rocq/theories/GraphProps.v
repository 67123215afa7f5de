(* Properties of the link-state graph and its routing tables:
   C25, C26, C27, C28 and C59. *)

From Coq Require Import NArith ZArith List Bool Lia Sorted Arith.
From Coq Require Import ZifyBool ZifyNat ZifyN.
From Verif Require Import GraphModel GraphSpec GraphProofs GraphProofs2 GraphProofs3 GraphProofs4
  GraphProofs5 GraphProofs6.
Import ListNotations.

(* ---- What a graph contains ---- *)

Definition has_node (g : graph) (a : N) : Prop :=
  exists v, In v (gvs g) /\ vaddr v = a.

(* An edge from a to b, announced n times. *)
Definition has_edge (g : graph) (a b : N) (n : Z) : Prop :=
  exists v e w, In v (gvs g) /\ vaddr v = a /\ In e (vedges v) /\ eann e = n /\
    deref g (enb e) = Some w /\ vaddr w = b.

Lemma has_edge_iff : forall g, ginv g -> forall a b n,
  has_edge g a b n <-> gedge g a b = Some n.
Proof.
  intros g [W I] a b n. unfold gedge, edge_of. split.
  - intros (v & e & w & H1 & H2 & H3 & H4 & H5 & H6).
    assert (F : find_vertex g a = Some v) by (apply find_vertex_iff; auto).
    rewrite clean_assoc, F by assumption. cbn [option_map].
    apply in_assoc.
    + apply (c_nd _ I a). rewrite clean_assoc, F by assumption. reflexivity.
    + unfold clean_edges. replace b with (addr_of g (enb e)) by (unfold addr_of; now rewrite H5).
      rewrite <- H4. now apply in_map with (f := fun e => (addr_of g (enb e), eann e)).
  - rewrite clean_assoc by assumption. destruct (find_vertex g a) as [v|] eqn:F; [|discriminate].
    cbn [option_map]. intros Ha. apply assoc_in in Ha. unfold clean_edges in Ha.
    apply in_map_iff in Ha as (e & He & Hin). apply find_vertex_iff in F as (Hv & Hva); auto.
    assert (E1 : addr_of g (enb e) = b) by congruence. assert (E2 : eann e = n) by congruence.
    destruct (deref_in g W (enb e)) as (w & Hw). { now apply (p_nb g W v). }
    exists v, e, w. split; [assumption|]. split; [assumption|]. split; [assumption|].
    split; [assumption|]. split; [assumption|]. unfold addr_of in E1. now rewrite Hw in E1.
Qed.

(* ---- C27: the graph reflects the announcements ---- *)

(* Every history with distinct end points: the return values are those
   of counting; a link is in the graph exactly while its count is
   positive, seen from both ends, with that count; a node is in the graph
   exactly while it has a link, once. *)
Theorem graph_counts_partial : forall ops, Forall distinct_ends ops ->
  let c := snd (count_run no_counts ops) in
  exists g, graph_run graph_create ops = Ok (fst (count_run no_counts ops), g) /\
    (forall a b n, has_edge g a b n <-> c a b = n /\ (0 < n)%Z) /\
    (forall a, has_node g a <-> exists b, (0 < c a b)%Z) /\
    NoDup (map vaddr (gvs g)).
Proof.
  intros ops F c.
  destruct (run_ok ops graph_create no_counts ginv_create agrees_create F) as (g & E & G & A).
  exists g. split; [assumption|]. fold c in A.
  assert (Hn : forall a b n, gedge g a b = Some n <-> c a b = n /\ (0 < n)%Z).
  { intros a b n. rewrite <- (A a b). split.
    - intros Hq. rewrite Hq. split; [reflexivity|].
      assert (1 <= n)%Z by (apply (c_pos _ (proj2 G) a b); exact Hq). lia.
    - intros (Hq & Hp). destruct (gedge g a b) as [m|]; cbn in Hq; [congruence | lia]. }
  split; [intros a b n; rewrite has_edge_iff by assumption; apply Hn|].
  pose proof G as (W & I). split.
  - intros a. split.
    + intros (v & Hv & Hva).
      assert (Fv : find_vertex g a = Some v) by (apply find_vertex_iff; auto).
      destruct (vedges v) as [|e es] eqn:Ev.
      * exfalso. apply (c_ne _ I a). rewrite clean_assoc, Fv by assumption. cbn. now rewrite Ev.
      * exists (addr_of g (enb e)).
        assert (Hq : gedge g a (addr_of g (enb e)) = Some (eann e)).
        { unfold gedge, edge_of. rewrite clean_assoc, Fv by assumption. cbn [option_map]. rewrite Ev. cbn.
          now rewrite N.eqb_refl. }
        apply Hn in Hq as (<- & Hp). assumption.
    + intros (b & Hb). assert (Hq : gedge g a b = Some (c a b)) by (apply Hn; auto).
      apply has_edge_iff in Hq; auto. destruct Hq as (v & e & w & H1 & H2 & _). exists v. auto.
  - apply sorted_nodup, (p_sorted g W).
Qed.
Print Assumptions graph_counts_partial.

(* When every directed link is announced at most once at a time and
   withdrawn only while announced, no call fails, and a link is usable
   (counted twice) exactly while both directions are announced. *)
Theorem graph_usable_partial : forall ops L, links_run [] ops = Some L ->
  exists rs g, graph_run graph_create ops = Ok (rs, g) /\ Forall (fun r => r = true) rs /\
    (forall a b, has_edge g a b 2 <-> usable L a b) /\
    (forall a b, has_edge g a b 1 <-> (In (a, b) L /\ ~ In (b, a) L) \/ (In (b, a) L /\ ~ In (a, b) L)) /\
    (forall a b n, has_edge g a b n -> n = 1%Z \/ n = 2%Z) /\
    (forall a, has_node g a <-> exists b, In (a, b) L \/ In (b, a) L).
Proof.
  intros ops L E. destruct (links_shows ops L E) as (rs & g & Eg & R & Sh).
  exists rs, g. split; [assumption|]. split; [assumption|].
  pose proof (s_ginv _ _ Sh) as G. pose proof (s_cnt _ _ Sh) as Cnt.
  split; [|split; [|split]].
  - intros a b. rewrite <- (shows_link g L Sh), glink_edge, has_edge_iff by assumption. reflexivity.
  - intros a b. rewrite has_edge_iff by assumption. pose proof (Cnt a b) as Hc. rewrite <- !mem_in.
    split.
    + intros Hq. rewrite Hq in Hc. cbn [zdef] in Hc.
      destruct (mem L a b), (mem L b a); cbn in Hc; lia.
    + intros Hq.
      assert (Hz : zdef (gedge g a b) = 1%Z).
      { rewrite Hc. destruct Hq as [(H1 & H2)|(H1 & H2)]; apply not_true_is_false in H2; rewrite H1, H2; reflexivity. }
      destruct (gedge g a b) as [n|]; cbn in Hz; [congruence | lia].
  - intros a b n Hq. apply has_edge_iff in Hq; auto. pose proof (Cnt a b) as Hc. rewrite Hq in Hc. cbn in Hc.
    assert (1 <= n)%Z by (apply (c_pos _ (proj2 G) a b); exact Hq).
    destruct (mem L a b), (mem L b a); cbn in Hc; lia.
  - intros a. apply (shows_node g L Sh).
Qed.
Print Assumptions graph_usable_partial.

(* A history that announces, announces from the other side, withdraws. *)
Example graph_usable_example :
  links_run [] [Announce 1 2; Announce 3 2; Announce 2 1; Announce 2 3; Withdraw 3 2]
  = Some [(2, 3); (2, 1); (1, 2)]%N.
Proof. reflexivity. Qed.

Example graph_counts_example :
  Forall distinct_ends [Announce 1 2; Announce 1 2; Withdraw 2 1; Withdraw 4 5] /\
  fst (count_run no_counts [Announce 1 2; Announce 1 2; Withdraw 2 1; Withdraw 4 5])
  = [true; true; true; false].
Proof. split; [repeat constructor; cbn; discriminate | reflexivity]. Qed.

(* Without that discipline one side alone makes a link usable, and either
   side can withdraw what the other announced. *)
Theorem graph_one_sided_refuted :
  exists g rs, graph_run graph_create [Announce 1 2; Announce 1 2] = Ok (rs, g) /\
    has_edge g 1 2 2 /\ ~ usable [(1, 2)]%N 1 2.
Proof.
  eexists _, _. split; [reflexivity|]. split.
  - eexists _, _, _. split; [left; reflexivity|]. split; [reflexivity|]. split; [left; reflexivity|].
    split; [reflexivity|]. split; reflexivity.
  - intros (_ & [Hq|[]]). discriminate.
Qed.
Print Assumptions graph_one_sided_refuted.

(* Withdrawing a link from a node to itself uses freed memory
   (graph.c:357-360: v is freed, then nb, the same vertex, is read). *)
Theorem graph_self_link_refuted :
  graph_run graph_create [Announce 1 1] <> UB /\
  graph_run graph_create [Announce 1 1; Withdraw 1 1] = UB.
Proof. split; [discriminate | reflexivity]. Qed.
Print Assumptions graph_self_link_refuted.

(* ---- C25: shortest paths ---- *)

(* Fewer nodes than an int can count. *)
Definition small (L : list (N * N)) : Prop :=
  (2 * Z.of_nat (length L) + 1 < INT_MAX)%Z.

Definition shortest_table (L : list (N * N)) (s : N) (t : list (N * list N)) : Prop :=
  NoDup (map fst t) /\
  (forall d, In d (map fst t) <-> d <> s /\ reachable (usable L) s d) /\
  (forall d hs, In (d, hs) t -> exists h n, hs = [h] /\ usable L s h /\
     distance (usable L) s d (S n) /\ distance (usable L) h d n).

Lemma shows_bound : forall g L, shows g L -> small L ->
  (Z.of_nat (length (gvs g)) + 1 < INT_MAX)%Z.
Proof. intros g L Sh Sm. pose proof (shows_small g L Sh). unfold small in Sm. lia. Qed.

Lemma simple_shortest : forall g L s t, shows g L -> simple_table g s t -> shortest_table L s t.
Proof.
  intros g L s t Sh (H1 & H2 & H3).
  pose proof (shows_link g L Sh) as E. split; [assumption|]. split.
  - intros d. rewrite H2. rewrite (reachable_ext _ _ E). reflexivity.
  - intros d hs Hi. destruct (H3 d hs Hi) as (h & n & -> & A & B & C).
    exists h, n. split; [reflexivity|]. split; [now apply E|].
    rewrite <- (distance_ext _ _ E), <- (distance_ext _ _ E). auto.
Qed.

(* The table has an entry for exactly the destinations reachable over
   links announced by both ends, each with one next hop, a neighbour one
   hop closer; when the call fails nothing is reachable. *)
Theorem simple_routes_shortest : forall ovf ops L s, links_run [] ops = Some L -> small L ->
  exists rs g, graph_run graph_create ops = Ok (rs, g) /\
    match graph_routing_table ovf g ROUTING_SIMPLE s with
    | Ok t => shortest_table L s t
    | Err => forall d, d <> s -> ~ reachable (usable L) s d
    | UB => False
    end.
Proof.
  intros ovf ops L s E Sm. destruct (links_shows ops L E) as (rs & g & Eg & _ & Sh).
  exists rs, g. split; [assumption|]. cbn [graph_routing_table].
  pose proof (simple_ok g (s_ginv _ _ Sh) (shows_bound g L Sh Sm) s) as So.
  destruct (routing_table_simple g s) as [[t dist]| |]; cbn [rbind]; auto.
  - destruct So as (So & _). eapply simple_shortest; eauto.
  - intros d Hd Hr. apply (So d Hd). rewrite (reachable_ext _ _ (shows_link g L Sh)). assumption.
Qed.
Print Assumptions simple_routes_shortest.

(* A ring of four nodes with a fifth behind it and a half-announced
   shortcut. *)
Definition ring : list gop :=
  [Announce 10 20; Announce 20 10; Announce 20 30; Announce 30 20;
   Announce 30 40; Announce 40 30; Announce 40 10; Announce 10 40;
   Announce 30 50; Announce 50 30; Announce 10 50].

Example ring_links : exists L, links_run [] ring = Some L /\ small L /\ usable L 10 20 /\ ~ usable L 10 50.
Proof.
  eexists. split; [reflexivity|]. split; [reflexivity|]. split.
  - split; cbn; auto 20.
  - intros (_ & Hq). cbn in Hq. repeat destruct Hq as [Hq|Hq]; try discriminate; contradiction.
Qed.

(* The table of node s after the history ops. *)
Definition table_after (ovf : overflow) (al : algo) (ops : list gop) (s : N)
  : res (list (N * list N)) :=
  rbind (graph_run graph_create ops) (fun rg => graph_routing_table ovf (snd rg) al s).

Example ring_table : 
  table_after trap ROUTING_SIMPLE ring 10
  = Ok [(50, [20]); (40, [40]); (30, [20]); (20, [20])]%N.
Proof. vm_compute. reflexivity. Qed.

(* ---- C26: hop-by-hop forwarding ---- *)

(* The next hop of the simple forwarding policy: the first of the entry. *)
Definition first_hop (t : list (N * list N)) (d : N) : option N :=
  match find (fun p => N.eqb (fst p) d) t with
  | Some (_, h :: _) => Some h
  | _ => None
  end.

(* Node x computed its table t from a graph with the links L; it may have
   heard of them in any order, and of others meanwhile. *)
Definition computed (L : list (N * N)) (x : N) (t : list (N * list N)) : Prop :=
  exists ops L' rs g, links_run [] ops = Some L' /\ (forall p, In p L' <-> In p L) /\
    small L' /\ graph_run graph_create ops = Ok (rs, g) /\
    match graph_routing_table wrap g ROUTING_SIMPLE x with
    | Ok t' => t = t'
    | _ => t = []
    end.

Lemma usable_same : forall L L', (forall p, In p L' <-> In p L) ->
  forall a b, usable L' a b <-> usable L a b.
Proof. intros L L' H a b. unfold usable. now rewrite !H. Qed.

Lemma computed_hop : forall L x t, computed L x t -> forall d n,
  distance (usable L) x d (S n) -> exists h, first_hop t d = Some h /\ usable L x h /\ distance (usable L) h d n.
Proof.
  intros L x t (ops & L' & rs & g & El & Same & Sm & Eg & Ht) d n Hd.
  destruct (simple_routes_shortest wrap ops L' x El Sm) as (rs' & g' & Eg' & R).
  assert (g' = g) by congruence. subst g'.
  pose proof (usable_same L L' Same) as E.
  assert (Hds : d <> x).
  { intros ->. destruct Hd as (_ & Hd). specialize (Hd 0 (walk_nil _ x)). lia. }
  assert (Hr : reachable (usable L') x d).
  { apply (reachable_ext _ _ E). exists (S n). apply Hd. }
  destruct (graph_routing_table wrap g ROUTING_SIMPLE x) as [t'| |]; [|exfalso; now apply (R d Hds)|contradiction].
  subst t'. destruct R as (Hnd & Hk & He).
  assert (Hin : In d (map fst t)) by (apply Hk; auto).
  unfold first_hop.
  destruct (find (fun p => N.eqb (fst p) d) t) as [[d' hs]|] eqn:F.
  - apply find_some in F as (F1 & F2). cbn in F2. apply N.eqb_eq in F2. subst d'.
    destruct (He d hs F1) as (h & m & -> & H1 & H2 & H3).
    exists h. split; [reflexivity|]. split; [now apply E|].
    apply (distance_ext _ _ E) in H2. apply (distance_ext _ _ E) in H3.
    assert (S m = S n) by (eapply distance_fun; eauto). assert (m = n) by lia. now subst.
  - apply find_none_iff in F. contradiction.
Qed.

(* Every node computed its table from the same links: a packet reaches
   its destination after exactly the minimum number of hops, each hop
   over a usable link. *)
Theorem forwarding_reaches : forall L (table : N -> list (N * list N)),
  (forall x, computed L x (table x)) ->
  forall s d n, distance (usable L) s d n ->
  let next x d := first_hop (table x) d in
  forward next d s n = Some d /\
  forall k, k < n -> exists x y, forward next d s k = Some x /\ forward next d s (S k) = Some y /\
    usable L x y /\ distance (usable L) x d (n - k) /\ x <> d.
Proof.
  intros L table Ht s d n Hd next. revert s Hd.
  induction n as [|n IH]; intros s Hd.
  - split; [|intros; lia]. destruct Hd as (Hw & _). inversion Hw; subst. reflexivity.
  - destruct (computed_hop L s (table s) (Ht s) d n Hd) as (h & Eh & Hl & Hdh).
    destruct (IH h Hdh) as (E1 & E2). split.
    + cbn [forward]. unfold next at 1. rewrite Eh. exact E1.
    + intros [|k] Hk.
      * exists s, h. split; [reflexivity|]. cbn [forward]. unfold next at 1. rewrite Eh.
        split; [reflexivity|]. split; [assumption|]. split; [assumption|].
        intros ->. destruct Hd as (_ & Hd). specialize (Hd 0 (walk_nil _ d)). lia.
      * destruct (E2 k) as (x & y & A & B & C & D' & Q); [lia|].
        exists x, y. cbn [forward]. unfold next at 1 3. rewrite Eh. split; [exact A|].
        split; [exact B|]. split; [assumption|].
        replace (S n - S k) with (n - k) by lia. auto.
Qed.
Print Assumptions forwarding_reaches.

(* Five nodes, each with its own table of the ring. *)
Definition ring_links_list : list (N * N) :=
  match links_run [] ring with Some L => L | None => [] end.

Definition ring_tables (x : N) : list (N * list N) :=
  match graph_run graph_create ring with
  | Ok (_, g) => match graph_routing_table wrap g ROUTING_SIMPLE x with Ok t => t | _ => [] end
  | _ => []
  end.

Example ring_computed : forall x, computed ring_links_list x (ring_tables x).
Proof.
  intros x. unfold computed, ring_tables.
  assert (El : links_run [] ring = Some ring_links_list) by (vm_compute; reflexivity).
  destruct (links_shows ring _ El) as (rs & g & E & _).
  exists ring, ring_links_list, rs, g. split; [exact El|]. split; [reflexivity|].
  split; [vm_compute; reflexivity|]. split; [exact E|]. rewrite E.
  destruct (graph_routing_table wrap g ROUTING_SIMPLE x); reflexivity.
Qed.

Example ring_forward :
  forward (fun x d => first_hop (ring_tables x) d) 50 10 3 = Some 50%N /\
  forward (fun x d => first_hop (ring_tables x) d) 50 10 2 = Some 30%N.
Proof. split; vm_compute; reflexivity. Qed.

(* ---- C28: loop-free alternates ---- *)

(* At most 4096 neighbours, announced by either side. *)
Definition few_neighbours (L : list (N * N)) (s : N) : Prop :=
  forall l, NoDup l -> (forall b, In b l -> In (s, b) L \/ In (b, s) L) ->
  (Z.of_nat (length l) <= 4096)%Z.

Lemma few_degree : forall g L s, shows g L -> few_neighbours L s ->
  forall v, find_vertex g s = Some v -> (Z.of_nat (length (vedges v)) <= PROG_MAX_FLOWS)%Z.
Proof.
  intros g L s Sh Few v F. pose proof (s_ginv _ _ Sh) as G. pose proof G as (W & I).
  specialize (Few (map (fun e => addr_of g (enb e)) (vedges v))).
  rewrite map_length in Few. apply Few.
  - replace (map (fun e => addr_of g (enb e)) (vedges v)) with (map fst (clean_edges g (vedges v))).
    + apply (c_nd _ I s). rewrite clean_assoc, F by assumption. reflexivity.
    + unfold clean_edges. rewrite map_map. reflexivity.
  - intros b Hb. apply (shows_nb g L Sh). now apply (nb_of_edges g G s v F).
Qed.

(* Node a is closer to d than any walk from a to d through s. *)
Definition avoids (link : N -> N -> Prop) (s a d : N) : Prop :=
  exists k, distance link a d k /\
    forall m1 m2, walk link a s m1 -> walk link s d m2 -> k < m1 + m2.

(* On overflow the sum wraps: the first next hop of an entry is the
   shortest-path one; the alternates after it are neighbours (announced
   at least by one side) other than the destination that avoid s, and,
   when no sum overflows, all of those. *)
Theorem lfa_loop_free_partial : forall ops L s, links_run [] ops = Some L ->
  small L -> few_neighbours L s ->
  exists rs g, graph_run graph_create ops = Ok (rs, g) /\
    match graph_routing_table wrap g ROUTING_LFA s with
    | Ok t' => exists t, shortest_table L s t /\ map fst t' = map fst t /\
        forall d hs, In (d, hs) t' -> exists h alts, hs = h :: alts /\ In (d, [h]) t /\
          (forall a, In a alts -> (In (s, a) L \/ In (a, s) L) /\ a <> d /\ avoids (usable L) s a d) /\
          ((4 * Z.of_nat (length L) < INT_MAX)%Z ->
           forall a, (In (s, a) L \/ In (a, s) L) -> a <> d -> reachable (usable L) s a ->
             avoids (usable L) s a d -> In a alts)
    | Err => forall d, d <> s -> ~ reachable (usable L) s d
    | UB => False
    end.
Proof.
  intros ops L s E Sm Few. destruct (links_shows ops L E) as (rs & g & Eg & _ & Sh).
  exists rs, g. split; [assumption|]. cbn [graph_routing_table].
  pose proof (s_ginv _ _ Sh) as G.
  pose proof (shows_link g L Sh) as El.
  pose proof (lfa_ok g G (shows_bound g L Sh Sm) s (few_degree g L s Sh Few)) as Lo.
  destruct (routing_table_lfa wrap g s) as [[t' dist]| |]; cbn [rbind]; auto.
  - destruct Lo as (t & St & _ & Hk & He). exists t.
    pose proof (simple_shortest g L s t Sh St) as Sht.
    split; [assumption|]. split; [assumption|]. intros d hs Hi.
    destruct (He d hs Hi) as (h & alts & E1 & E2 & E3 & E4). exists h, alts.
    split; [assumption|]. split; [assumption|]. split.
    + intros a Ha. destruct (E3 a Ha) as (H1 & H2 & (k & H3 & _ & _ & H5)).
      split; [now apply (shows_nb g L Sh)|]. split; [assumption|]. exists k.
      split; [now apply (distance_ext _ _ El)|].
      intros m1 m2 W1 W2. apply H5; now apply (walk_ext _ _ El).
    + intros Hs4 a Ha Had Hra (k & H3 & H5). apply E4; auto.
      * pose proof (shows_small g L Sh). lia.
      * now apply (shows_nb g L Sh).
      * exists k. split; [now apply (distance_ext _ _ El)|].
        split; [now apply (reachable_ext _ _ El)|].
        split.
        -- apply (reachable_ext _ _ El). destruct Sht as (_ & Hk2 & _).
           apply Hk2. rewrite <- Hk. apply in_map_iff. exists (d, hs). auto.
        -- intros m1 m2 W1 W2. apply H5; now apply (walk_ext _ _ El).
  - intros d Hd Hr. apply (Lo d Hd). now apply (reachable_ext _ _ El).
Qed.
Print Assumptions lfa_loop_free_partial.

Example ring_lfa : 
  table_after wrap ROUTING_LFA ring 20
  = Ok [(50, [30; 30]); (40, [10; 30; 10]); (30, [30]); (10, [10])]%N.
Proof. vm_compute. reflexivity. Qed.

(* A packet that s sends to an alternate for d, forwarded on by tables
   computed from the same links, never comes back to s. *)
Theorem lfa_detour : forall L (table : N -> list (N * list N)),
  (forall x, computed L x (table x)) ->
  forall s a d, avoids (usable L) s a d ->
  let next x d := first_hop (table x) d in
  exists n, forward next d a n = Some d /\ forall k, k <= n -> forward next d a k <> Some s.
Proof.
  intros L table Ht s a d (n & Hd & Hav) next. exists n.
  destruct (forwarding_reaches L table Ht a d n Hd) as (E1 & E2). split; [exact E1|].
  assert (Hw : forall k, k <= n -> exists x, forward next d a k = Some x /\ walk (usable L) a x k).
  { induction k as [|k IH]; intros Hk.
    - exists a. split; [reflexivity | constructor].
    - destruct IH as (x & Ex & Wx); [lia|].
      destruct (E2 k) as (x' & y & A & B & C & _); [lia|]. fold next in A, B.
      assert (x' = x) by congruence. subst x'. exists y. split; [assumption|]. eapply walk_snoc; eauto. }
  intros k Hk Hs. destruct (Hw k Hk) as (x & Ex & Wx).
  assert (x = s) by congruence. subst x.
  assert (Hsd : exists m, walk (usable L) s d m /\ m = n - k).
  { destruct (Nat.eq_dec k n) as [->|Hne].
    - fold next in E1. assert (s = d) by congruence. subst s. exists 0. split; [constructor | lia].
    - destruct (E2 k) as (x & y & A & _ & _ & D' & _); [lia|]. fold next in A.
      assert (x = s) by congruence. subst x. exists (n - k). split; [apply D' | reflexivity]. }
  destruct Hsd as (m & Wm & ->). specialize (Hav k (n - k) Wx Wm). lia.
Qed.
Print Assumptions lfa_detour.

(* An alternate may be a neighbour whose link only one side announced:
   the packet is sent over a link that is not usable. *)
Theorem lfa_half_announced_refuted :
  exists ops L t, links_run [] ops = Some L /\ table_after wrap ROUTING_LFA ops 1 = Ok t /\
    In (4, [2; 3; 2])%N t /\ ~ usable L 1 3.
Proof.
  exists [Announce 1 2; Announce 2 1; Announce 2 4; Announce 4 2; Announce 4 3; Announce 3 4;
     Announce 1 3].
  eexists _, _. split; [reflexivity|]. split; [vm_compute; reflexivity|]. split.
  - cbn. auto.
  - intros (_ & Hq). cbn in Hq. repeat destruct Hq as [Hq|Hq]; try discriminate; contradiction.
Qed.
Print Assumptions lfa_half_announced_refuted.

(* With a destination that is not reachable, the sum of distances
   overflows an int: undefined behaviour (graph.c:679-680). *)
Theorem lfa_overflow_refuted :
  exists ops L, links_run [] ops = Some L /\ table_after trap ROUTING_LFA ops 1 = UB.
Proof.
  exists [Announce 1 2; Announce 2 1; Announce 3 4; Announce 4 3].
  eexists. split; [reflexivity|]. vm_compute. reflexivity.
Qed.
Print Assumptions lfa_overflow_refuted.

(* With more than 4096 neighbours the arrays of
   graph_routing_table_lfa are overrun (graph.c:616-618, 648-651),
   whatever the overflow behaviour. *)
Theorem lfa_many_neighbours_refuted : forall ovf ops L s l, links_run [] ops = Some L -> small L ->
  NoDup l -> (forall b, In b l -> In (s, b) L \/ In (b, s) L) -> (4096 < Z.of_nat (length l))%Z ->
  exists rs g, graph_run graph_create ops = Ok (rs, g) /\
    graph_routing_table ovf g ROUTING_LFA s = UB.
Proof.
  intros ovf ops L s l E Sm Hnd Hin Hlen. destruct (links_shows ops L E) as (rs & g & Eg & _ & Sh).
  exists rs, g. split; [assumption|]. cbn [graph_routing_table]. unfold routing_table_lfa.
  pose proof (s_ginv _ _ Sh) as G. pose proof G as (W & I).
  pose proof (shows_bound g L Sh Sm) as Bd.
  assert (Hs : exists b, In (s, b) L \/ In (b, s) L).
  { destruct l as [|b l]; [cbn in Hlen; lia|]. exists b. apply Hin. now left. }
  apply (shows_node g L Sh) in Hs as (v & Hv & Hva).
  assert (F : find_vertex g s = Some v) by (apply find_vertex_iff; auto).
  assert (Hinc : incl l (map (fun e => addr_of g (enb e)) (vedges v))).
  { intros b Hb. apply (nb_of_edges g G s v F). apply (shows_nb g L Sh). auto. }
  apply NoDup_incl_length in Hinc; auto. rewrite map_length in Hinc.
  pose proof (simple_ok g G Bd s) as So.
  destruct (routing_table_simple g s) as [[t dist]| |] eqn:Es; [|exfalso|contradiction].
  - cbn [rbind]. rewrite F. rewrite (lfa_nbs_ub g G Bd); [reflexivity| | unfold PROG_MAX_FLOWS; lia | unfold PROG_MAX_FLOWS; lia].
    intros e He. now apply (p_nb g W v).
  - unfold routing_table_simple in Es. destruct (dijkstra_ok g W Bd s) as (dist & nhops & Ed & Ld & Ln & R).
    destruct (Z.ltb_spec (gnr g) 2) as [L2|L2].
    + rewrite (p_nr g W) in L2.
      assert (Hi2 : incl l (map vaddr (gvs g))).
      { intros b Hb. assert (Hb' : exists x, In (b, x) L \/ In (x, b) L).
        { exists s. destruct (Hin b Hb); auto. }
        apply (shows_node g L Sh) in Hb' as (w & Hw & <-). now apply in_map. }
      apply NoDup_incl_length in Hi2; auto. rewrite map_length in Hi2. lia.
    + rewrite Ed in Es. cbn [rbind] in Es.
      rewrite (table_loop_ok g G nhops Ln) with (pre := []) (post := gvs g) in Es; [discriminate| |reflexivity].
      intros v0 id Hv0 Hh.
      destruct (R v0 Hv0) as [(H1 & H2 & H3)|[(H1 & H2 & H3 & H4)|(H1 & k & w & H2 & H3 & H4 & H5 & H6 & H7 & H8)]];
        try congruence. assert (id = vid w) as -> by congruence. now apply in_map.
Qed.
Print Assumptions lfa_many_neighbours_refuted.

(* A star with 4097 leaves meets the hypotheses. *)
Definition star (n : nat) : list gop :=
  map (fun i => Announce 0 (N.of_nat i)) (seq 1 n).

Example star_links :
  match links_run [] (star (Z.to_nat 4097)) with
  | Some L => Nat.eqb (length L) (Z.to_nat 4097) = true
  | None => False
  end.
Proof. vm_compute. reflexivity. Qed.

(* ---- C59: equal-cost multipath ---- *)

(* Neighbour a starts a shortest walk from s to d. *)
Definition shortest_hop (link : N -> N -> Prop) (s a d : N) : Prop :=
  exists k, distance link a d k /\ distance link s d (S k).

(* On overflow the sum wraps: one entry for every other node, without
   duplicates; when every link of s is announced by both ends, its next
   hops are exactly the neighbours on shortest paths, each once. *)
Theorem ecmp_exact_partial : forall ops L s, links_run [] ops = Some L -> small L ->
  (forall b, In (s, b) L <-> In (b, s) L) ->
  exists rs g, graph_run graph_create ops = Ok (rs, g) /\
    match graph_routing_table wrap g ROUTING_ECMP s with
    | Ok t => NoDup (map fst t) /\
        (forall d, In d (map fst t) <-> d <> s /\ has_node g d) /\
        forall d hs, In (d, hs) t -> NoDup hs /\
          forall a, In a hs <-> usable L s a /\ shortest_hop (usable L) s a d
    | Err => forall d, d <> s -> ~ reachable (usable L) s d
    | UB => False
    end.
Proof.
  intros ops L s E Sm Both. destruct (links_shows ops L E) as (rs & g & Eg & _ & Sh).
  exists rs, g. split; [assumption|]. cbn [graph_routing_table].
  pose proof (s_ginv _ _ Sh) as G. pose proof (shows_link g L Sh) as El.
  pose proof (ecmp_ok g G (shows_bound g L Sh Sm) s) as Eo.
  destruct (routing_table_ecmp wrap g s) as [t| |]; auto.
  - destruct Eo as (H1 & H2 & H3). split; [assumption|]. split; [exact H2|].
    intros d hs Hi. destruct (H3 d hs Hi) as (H4 & H5). split; [assumption|]. intros a. rewrite H5.
    rewrite (shows_nb g L Sh). unfold usable at 1. rewrite (Both a).
    unfold on_shortest, shortest_hop. split.
    + intros (Ha & k & Hk1 & Hk2). split; [tauto|]. exists k. split; now apply (distance_ext _ _ El).
    + intros (Ha & k & Hk1 & Hk2). split; [tauto|]. exists k. split; now apply (distance_ext _ _ El).
  - intros d Hd Hr. apply (Eo d Hd). now apply (reachable_ext _ _ El).
Qed.
Print Assumptions ecmp_exact_partial.

Example ring_ecmp : 
  table_after wrap ROUTING_ECMP ring 20
  = Ok [(50, [30]); (40, [30; 10]); (30, [30]); (10, [10])]%N.
Proof. vm_compute. reflexivity. Qed.

Example ring_both : forall b, In (20, b)%N ring_links_list <-> In (b, 20)%N ring_links_list.
Proof.
  intros b. cbn. split; intros Hq; repeat destruct Hq as [Hq|Hq]; try contradiction;
    first [discriminate | inversion Hq; subst; auto 20].
Qed.

(* A next hop may be a neighbour whose link only one side announced. *)
Theorem ecmp_half_announced_refuted :
  exists ops L t, links_run [] ops = Some L /\ table_after wrap ROUTING_ECMP ops 1 = Ok t /\
    In (4, [3; 2])%N t /\ ~ usable L 1 3.
Proof.
  exists [Announce 1 2; Announce 2 1; Announce 2 4; Announce 4 2; Announce 4 3; Announce 3 4;
     Announce 1 3].
  eexists _, _. split; [reflexivity|]. split; [vm_compute; reflexivity|]. split.
  - cbn. auto.
  - intros (_ & Hq). cbn in Hq. repeat destruct Hq as [Hq|Hq]; try discriminate; contradiction.
Qed.
Print Assumptions ecmp_half_announced_refuted.

(* With a node that is not reachable, a distance plus one overflows an
   int: undefined behaviour (graph.c:750). *)
Theorem ecmp_overflow_refuted :
  exists ops L, links_run [] ops = Some L /\ table_after trap ROUTING_ECMP ops 1 = UB.
Proof.
  exists [Announce 1 2; Announce 2 1; Announce 3 4; Announce 4 3].
  eexists. split; [reflexivity|]. vm_compute. reflexivity.
Qed.
Print Assumptions ecmp_overflow_refuted.
