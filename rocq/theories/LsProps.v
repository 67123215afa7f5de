(* Properties of the link-state database: C29, C60, C61, C62 and C63. *)

From Coq Require Import NArith ZArith List Bool Lia Sorted Arith.
From Coq Require Import ZifyBool ZifyNat ZifyN.
From Verif Require Import GraphModel GraphSpec GraphProofs3 GraphProofs5 GraphProofs6 GraphProps LsModel
  LsSpec LsProofs LsProofs2 LsProofs3 LsProofs4 LsProofs5.
Import ListNotations.

(* The database of a node has the link from s to d, with number q. *)
Definition knows (l : ls) (s d q : N) : Prop := exists t, In (Adj s d q t) (db l).

(* The links in the database. *)
Definition db_links (l : ls) : list (N * N) := map (fun a => (a_src a, a_dst a)) (db l).

(* A state a node gets into, whatever happens to it, as long as no link
   joins a node to itself. *)
Definition state_of (ovf : overflow) (l : ls) : Prop :=
  exists me a es os, Forall (good_event me) es /\ ls_run ovf (ls_init me a) es = Ok (l, os).

Lemma state_inv : forall ovf l, state_of ovf l -> linv l /\ StronglySorted nb_lt (nbs l).
Proof.
  intros ovf l (me & a & es & os & G & E). split.
  - apply (run_linv ovf es (ls_init me a) l os); auto. apply linv_init.
  - eapply run_nbs; eauto. constructor.
Qed.

Lemma knows_seq : forall l s d q, linv l -> knows l s d q <-> seq_of (db l) s d = Some q.
Proof. intros l s d q I. unfold knows. rewrite seq_of_iff; [reflexivity | apply (l_sorted _ I)]. Qed.

(* ---- C29: accepting and forwarding announcements ---- *)

(* The database has at most one entry per link. *)
Theorem ls_one_entry_per_link : forall ovf l, state_of ovf l ->
  NoDup (db_links l) /\ forall s d q q', knows l s d q -> knows l s d q' -> q = q'.
Proof.
  intros ovf l Hl. apply state_inv in Hl as (I & _). split.
  - apply (links_nodup (db l)), (l_sorted _ I).
  - intros s d q q' H1 H2. apply knows_seq in H1, H2; auto. congruence.
Qed.
Print Assumptions ls_one_entry_per_link.

(* An announcement is accepted exactly if the link is not in the database
   or has a smaller number there.  Then it goes, once, to every
   management flow but the one it came from, and the database has it;
   other links are left alone.  Otherwise nothing changes and nothing is
   sent. *)
Theorem ls_accept_exact : forall ovf l fd m now l' ok out, state_of ovf l -> m_src m <> m_dst m ->
  ls_step ovf l (Recv fd m now) = Ok (l', (ok, out)) ->
  (ok = true <-> forall q, knows l (m_src m) (m_dst m) q -> (q < m_seq m)%N) /\
  (ok = true -> knows l' (m_src m) (m_dst m) (m_seq m) /\
     out = map (fun f => (f, m)) (filter (fun f => negb (N.eqb f fd))
             (map n_fd (filter (fun b => match n_type b with NB_MGMT => true | NB_DT => false end) (nbs l))))) /\
  (ok = false -> l' = l /\ out = []) /\
  (forall s d q, (s, d) <> (m_src m, m_dst m) -> knows l' s d q <-> knows l s d q).
Proof.
  intros ovf l fd m now l' ok out Hl Hm E. apply state_inv in Hl as (I & _).
  pose proof (recv_spec ovf l fd m now l' ok out I Hm E) as (I' & _ & _ & En & Eok & Eo & R).
  split; [|split; [|split]].
  - unfold fresh in Eok. rewrite Eok. destruct (seq_of (db l) (m_src m) (m_dst m)) as [q0|] eqn:Q.
    + split.
      * intros L q Hq. apply knows_seq in Hq; auto. assert (q = q0) by congruence. lia.
      * intros H. specialize (H q0). rewrite knows_seq in H by auto. specialize (H Q). lia.
    + split; auto. intros _ q Hq. apply knows_seq in Hq; auto. congruence.
  - intros ->. destruct R as (R & ->). split; [now apply knows_seq|].
    reflexivity.
  - intros ->. destruct R as (R1 & R2 & _). auto.
  - intros s d q Hn. rewrite !knows_seq by auto. now rewrite Eo.
Qed.
Print Assumptions ls_accept_exact.

(* A run of the node during which the link from s to d stays in the
   database. *)
Inductive keeps (ovf : overflow) (s d : N) : ls -> ls -> Prop :=
| keeps_nil : forall l, keeps ovf s d l l
| keeps_cons : forall l e l1 o l2, good_event (own l) e -> ls_step ovf l e = Ok (l1, o) ->
    In (s, d) (db_links l1) -> keeps ovf s d l1 l2 -> keeps ovf s d l l2.

(* The link belongs to another node and does not leave the database:
   announcements are accepted in strictly increasing order. *)
Theorem ls_accepts_increasing_partial : forall ovf l fd1 m1 t1 l1 out1 l2 fd2 m2 t2 l3 out2,
  state_of ovf l -> m_src m1 <> m_dst m1 -> m_src m1 <> own l ->
  m_src m2 = m_src m1 -> m_dst m2 = m_dst m1 ->
  ls_step ovf l (Recv fd1 m1 t1) = Ok (l1, (true, out1)) ->
  keeps ovf (m_src m1) (m_dst m1) l1 l2 ->
  ls_step ovf l2 (Recv fd2 m2 t2) = Ok (l3, (true, out2)) ->
  (m_seq m1 < m_seq m2)%N.
Proof.
  intros ovf l fd1 m1 t1 l1 out1 l2 fd2 m2 t2 l3 out2 Hl Hm Ho Es Ed E1 K E2.
  apply state_inv in Hl as (I & _).
  pose proof (recv_spec ovf l fd1 m1 t1 l1 true out1 I Hm E1) as (I1 & O1 & _ & _ & _ & _ & (R & _)).
  assert (K2 : linv l2 /\ exists q, seq_of (db l2) (m_src m1) (m_dst m1) = Some q /\ (m_seq m1 <= q)%N).
  { assert (Ho1 : m_src m1 <> own l1) by congruence.
    assert (Hq : exists q, seq_of (db l1) (m_src m1) (m_dst m1) = Some q /\ (m_seq m1 <= q)%N)
      by (exists (m_seq m1); split; [auto | lia]).
    clear - K I1 Ho1 Hq. induction K as [l|l e l1 o l2 G E Hi K IH]; [auto|].
    destruct (step_linv ovf l e l1 o I1 G E) as (I2 & O2 & _). apply IH; auto; [congruence|].
    destruct Hq as (q & Hq & Hle). fold (links (db l1)) in Hi. apply seq_of_in in Hi as (q' & Hq').
    exists q'. split; auto. pose proof (step_seq ovf l e l1 o _ _ q q' I1 G Ho1 E Hq Hq'). lia. }
  destruct K2 as (I2 & q & Hq & Hle).
  assert (Hm2 : m_src m2 <> m_dst m2) by congruence.
  pose proof (recv_spec ovf l2 fd2 m2 t2 l3 true out2 I2 Hm2 E2) as (_ & _ & _ & _ & F & _).
  unfold fresh in F. rewrite Es, Ed, Hq in F. lia.
Qed.
Print Assumptions ls_accepts_increasing_partial.

(* An entry expires after a minute; then the same announcement is
   accepted and forwarded again. *)
Theorem ls_accepted_again_refuted :
  exists l, ls_run trap (ls_init 1 ROUTING_SIMPLE)
    [MgmtAdd 7 70; MgmtAdd 8 80; Recv 70 (Lsm 5 6 3) 0; Update 61; Recv 80 (Lsm 5 6 3) 62] =
  Ok (l, [(false, []); (false, []); (true, [(80, Lsm 5 6 3)]); (false, []); (true, [(70, Lsm 5 6 3)])])%N.
Proof.
  set (es := [MgmtAdd 7 70; MgmtAdd 8 80; Recv 70 (Lsm 5 6 3) 0; Update 61; Recv 80 (Lsm 5 6 3) 62]).
  set (r := ls_run trap (ls_init 1 ROUTING_SIMPLE) es).
  exists (match r with Ok (l, _) => l | _ => ls_init 1 ROUTING_SIMPLE end).
  vm_compute. reflexivity.
Qed.
Print Assumptions ls_accepted_again_refuted.

(* From any state of the network and whatever the order of deliveries:
   the messages on their way cause only finitely many deliveries, at most
   one for each plus one for each of them and each management flow. *)
Theorem ls_flooding_terminates : forall ovf peer ns n, NoDup ns ->
  (forall x fd y fd', peer x fd = Some (y, fd') -> In y ns) ->
  (forall x, state_of ovf (nodes n x)) ->
  (forall f, In f (flying n) -> m_src (msg f) <> m_dst (msg f) /\ In (to_node f) ns) ->
  forall k n', deliveries ovf peer n k n' ->
  k <= length (flying n) * (1 + total (fun x => length (mgmt_fds (nbs (nodes n x)))) ns).
Proof.
  intros ovf peer ns n Nd Pn Hs Hf k n' D.
  assert (P : proper ns (map msg (flying n)) n).
  { split; [intros x; now apply (state_inv ovf)|]. intros f Hi. destruct (Hf f Hi) as (H1 & H2).
    split; auto. split; auto. now apply in_map. }
  pose proof (deliveries_energy ovf peer ns _ n k n' Nd Pn P D) as H.
  pose proof (energy_bound peer ns (map msg (flying n)) n) as B. rewrite map_length in B.
  unfold degree in B.
  rewrite Nat.mul_add_distr_l, Nat.mul_1_r. lia.
Qed.
Print Assumptions ls_flooding_terminates.

(* Three nodes in a triangle; the announcement of link 1 -> 9 is on its
   way from node 1 to nodes 2 and 3. *)
Definition tri_peer (x fd : N) : option (N * N) :=
  match x, fd with
  | 1, 12 => Some (2, 21) | 2, 21 => Some (1, 12)
  | 1, 13 => Some (3, 31) | 3, 31 => Some (1, 13)
  | 2, 23 => Some (3, 32) | 3, 32 => Some (2, 23)
  | _, _ => None
  end%N.

Definition tri_events (x : N) : list event :=
  match x with
  | 1 => [MgmtAdd 2 12; MgmtAdd 3 13; DtAdd 9 19 0]
  | 2 => [MgmtAdd 1 21; MgmtAdd 3 23]
  | 3 => [MgmtAdd 1 31; MgmtAdd 2 32]
  | _ => []
  end%N.

Definition run_of (x : N) : ls :=
  match ls_run trap (ls_init x ROUTING_SIMPLE) (tri_events x) with
  | Ok (l, _) => l
  | _ => ls_init x ROUTING_SIMPLE
  end.

Definition tri_net : net :=
  Net run_of [Flight 2 21 (Lsm 1 9 0); Flight 3 31 (Lsm 1 9 0)].

Example tri_hypotheses : NoDup [1; 2; 3]%N /\
  (forall x fd y fd', tri_peer x fd = Some (y, fd') -> In y [1; 2; 3]%N) /\
  (forall x, state_of trap (nodes tri_net x)) /\
  (forall f, In f (flying tri_net) -> m_src (msg f) <> m_dst (msg f) /\ In (to_node f) [1; 2; 3]%N).
Proof.
  split; [repeat constructor; cbn; intuition congruence|]. split; [|split].
  - intros x fd y fd' E. unfold tri_peer in E.
    repeat match type of E with context [match ?p with _ => _ end] => destruct p end;
      try discriminate; assert (y = 1 \/ y = 2 \/ y = 3)%N by (cbn; lia || (left; congruence) ||
        (right; left; congruence) || (right; right; congruence)); cbn; intuition congruence.
  - intros x. cbn [nodes tri_net]. unfold state_of, run_of.
    assert (G : Forall (good_event x) (tri_events x)).
    { unfold tri_events. repeat match goal with |- context [match ?p with _ => _ end] => destruct p end;
        repeat constructor; cbn; congruence. }
    destruct (run_total trap (tri_events x) (ls_init x ROUTING_SIMPLE) (linv_init _ _)) as (l & os & E & _); auto.
    + assert (length (tri_events x) <= 3).
      { unfold tri_events. repeat match goal with |- context [match ?p with _ => _ end] => destruct p end; cbn; lia. }
      cbn [db ls_init length]. unfold INT_MAX. lia.
    + exists x, ROUTING_SIMPLE, (tri_events x), os. split; auto. now rewrite E.
  - intros f [<-|[<-|[]]]; cbn; split; auto; discriminate.
Qed.

(* ---- C60: database, graph and routing table agree ---- *)

(* Every history of a node whose policy is the simple one: no step goes
   wrong; the usable links in the graph are those with both directions
   in the database; the routing table is one of shortest paths over
   them. *)
Theorem ls_graph_exact : forall ovf me es, Forall (good_event me) es ->
  (2 * Z.of_nat (length es) + 1 < INT_MAX)%Z ->
  exists l os, ls_run ovf (ls_init me ROUTING_SIMPLE) es = Ok (l, os) /\ own l = me /\
    (forall a b, has_edge (gr l) a b 2 <-> usable (db_links l) a b) /\
    match graph_routing_table ovf (gr l) ROUTING_SIMPLE me with
    | Ok t => shortest_table (db_links l) me t
    | Err => db_links l = []
    | UB => False
    end.
Proof.
  intros ovf me es G Sm.
  destruct (run_total ovf es (ls_init me ROUTING_SIMPLE) (linv_init _ _) G eq_refl Sm) as (l & os & E & Ln).
  destruct (run_linv ovf es _ l os (linv_init _ _) G E) as (I & Eo & _).
  exists l, os. split; auto. split; [exact Eo|]. pose proof I as [A B C]. split.
  - intros a b. destruct C as (ops & L & rs & E1 & E2 & E3).
    destruct (graph_usable_partial ops L E1) as (rs' & g' & E4 & _ & U & _).
    assert (g' = gr l) by congruence. subst g'. rewrite U. apply usable_same. exact E3.
  - apply built_table; auto.
    + unfold small, db_links. rewrite map_length. cbn [db ls_init length] in Ln. lia.
    + now apply links_nodup.
Qed.
Print Assumptions ls_graph_exact.

(* Links come, are refreshed, go and expire. *)
Example ls_graph_example :
  Forall (good_event 1) [DtAdd 2 12 0; Recv 21 (Lsm 2 1 0) 0; Recv 21 (Lsm 2 3 4) 1; Recv 21 (Lsm 3 2 9) 1;
    Update 15; Recv 21 (Lsm 2 1 1) 20; DtAdd 4 14 30; Update 70; DtDel 4 14; Recalc]%N /\
  match ls_run trap (ls_init 1 ROUTING_SIMPLE) [DtAdd 2 12 0; Recv 21 (Lsm 2 1 0) 0; Recv 21 (Lsm 2 3 4) 1; Recv 21 (Lsm 3 2 9) 1;
    Update 15; Recv 21 (Lsm 2 1 1) 20; DtAdd 4 14 30; Update 70; DtDel 4 14; Recalc]%N with
  | Ok (l, _) => db_links l = [(2, 1); (1, 2)]%N /\
      graph_routing_table trap (gr l) ROUTING_SIMPLE 1 = Ok [(2, [2])]%N
  | _ => False
  end.
Proof. split; [repeat constructor; cbn; congruence | vm_compute; split; reflexivity]. Qed.

(* An announcement of a link from a node to itself, from the wire, makes
   the node use freed memory when the entry expires. *)
Theorem ls_self_link_refuted :
  ls_run trap (ls_init 1 ROUTING_SIMPLE) [MgmtAdd 7 70; Recv 70 (Lsm 5 5 0) 0; Update 61] = UB.
Proof. vm_compute. reflexivity. Qed.
Print Assumptions ls_self_link_refuted.

(* ---- C61: nodes come to know the same links ---- *)

(* A network that starts with empty databases.  Nothing is removed: no
   data transfer connection closes, no entry expires and no number
   reaches 2^64; management flows may come and go. *)
Inductive net_reach (ovf : overflow) (peer : N -> N -> option (N * N)) : net -> Prop :=
| reach_start : forall a, net_reach ovf peer (Net (fun x => ls_init x (a x)) [])
| reach_local : forall n x e n', net_reach ovf peer n -> net_local ovf peer n x e n' ->
    good_event x e -> quiet (nodes n x) e -> net_reach ovf peer n'
| reach_deliver : forall n x m ok n', net_reach ovf peer n -> net_deliver ovf peer n x m ok n' ->
    net_reach ovf peer n'.

Lemma reach_ninv : forall ovf peer n,
  (forall x fd y fd', peer x fd = Some (y, fd') -> peer y fd' = Some (x, fd)) ->
  net_reach ovf peer n -> ninv peer n /\ forall x, own (nodes n x) = x.
Proof.
  intros ovf peer n Sym R. induction R as [a|n x e n' R (IH & Io) D G Q|n x m ok n' R (IH & Io) D].
  - split; [|reflexivity]. constructor; cbn; try contradiction. intros x. apply linv_init.
  - destruct D as [l (ok, out) Hnr E]. cbn [snd]. split.
    + eapply ninv_step; eauto.
      * now rewrite Io.
      * intros fd m now ->. exfalso. eapply Hnr; eauto.
    + intros y. cbn. unfold set_node. destruct (N.eqb_spec y x) as [->|Hn]; auto.
      destruct (step_linv ovf (nodes n x) e l (ok, out)) as (_ & O & _); auto; [apply IH | now rewrite Io|]. congruence.
  - destruct D as [fd now a b l out Ef E].
    assert (G : good_event (own (nodes n x)) (Recv fd m now)).
    { cbn. apply (n_ends _ _ IH (Flight x fd m)). rewrite Ef. apply in_or_app. right. now left. }
    split.
    + rewrite app_assoc. eapply ninv_step; eauto.
      * exact Logic.I.
      * intros f Hf. rewrite Ef. apply in_app_or in Hf as [Hf|Hf]; apply in_or_app; [now left | right; now right].
      * intros f Hf. rewrite Ef in Hf. apply in_app_or in Hf as [Hf|[Hf|Hf]].
        -- left. apply in_or_app. now left.
        -- subst f. right. exists now. auto.
        -- left. apply in_or_app. now right.
      * intros fd0 m0 now0 X. assert (fd0 = fd) as -> by congruence. assert (m0 = m) as -> by congruence.
        rewrite Ef. apply in_or_app. right. now left.
    + intros y. cbn. unfold set_node. destruct (N.eqb_spec y x) as [->|Hn]; auto.
      destruct (step_linv ovf (nodes n x) _ l (ok, out) (n_linv _ _ IH x) G E) as (_ & O & _). congruence.
Qed.

(* Nodes joined by management flows that both ends use. *)
Inductive joined (peer : N -> N -> option (N * N)) (n : net) : N -> N -> Prop :=
| joined_refl : forall x, joined peer n x x
| joined_step : forall x fd y fd' z, peer x fd = Some (y, fd') ->
    In fd (mgmt_fds (nbs (nodes n x))) -> In fd' (mgmt_fds (nbs (nodes n y))) ->
    joined peer n y z -> joined peer n x z.

(* When no announcement is on its way any more, nodes that are joined
   know the same links with the same numbers. *)
Theorem ls_converges_partial : forall ovf peer n,
  (forall x fd y fd', peer x fd = Some (y, fd') -> peer y fd' = Some (x, fd)) ->
  net_reach ovf peer n -> flying n = [] ->
  forall x y, joined peer n x y -> forall s d q, knows (nodes n x) s d q <-> knows (nodes n y) s d q.
Proof.
  intros ovf peer n Sym R F x y J. destruct (reach_ninv ovf peer n Sym R) as ([A B C D] & _).
  rewrite F in D. induction J as [x|x fd y fd' z Ep H1 H2 J IH]; [tauto|].
  intros s d q. rewrite <- IH, !knows_seq by auto.
  assert (Dir : forall x fd y fd', peer x fd = Some (y, fd') -> In fd (mgmt_fds (nbs (nodes n x))) ->
    forall q, seq_of (db (nodes n x)) s d = Some q -> ge (nodes n y) s d q).
  { intros x1 f1 x2 f2 E1 E2 q1 E3. destruct (D _ _ _ _ s d q1 E2 E1 E3) as [G|(q' & _ & [])]. exact G. }
  split; intros Eq.
  - destruct (Dir _ _ _ _ Ep H1 q Eq) as (q1 & E1 & L1).
    destruct (Dir _ _ _ _ (Sym _ _ _ _ Ep) H2 q1 E1) as (q2 & E2 & L2).
    rewrite E1. f_equal. assert (q2 = q) by congruence. lia.
  - destruct (Dir _ _ _ _ (Sym _ _ _ _ Ep) H2 q Eq) as (q1 & E1 & L1).
    destruct (Dir _ _ _ _ Ep H1 q1 E1) as (q2 & E2 & L2).
    rewrite E1. f_equal. assert (q2 = q) by congruence. lia.
Qed.
Print Assumptions ls_converges_partial.

(* The routing table of node x. *)
Definition table_at (n : net) (x : N) : list (N * list N) :=
  match graph_routing_table wrap (gr (nodes n x)) ROUTING_SIMPLE x with Ok t => t | _ => [] end.

(* Then forwarding by the nodes' routing tables takes a packet to its
   destination in the least number of hops. *)
Theorem ls_converged_forwarding_partial : forall ovf peer n,
  (forall x fd y fd', peer x fd = Some (y, fd') -> peer y fd' = Some (x, fd)) ->
  net_reach ovf peer n -> flying n = [] ->
  forall s d k, small (db_links (nodes n s)) ->
  (forall x, reachable (usable (db_links (nodes n s))) s x -> joined peer n s x) ->
  distance (usable (db_links (nodes n s))) s d k ->
  forward (fun x d => first_hop (table_at n x) d) d s k = Some d.
Proof.
  intros ovf peer n Sym R F s d k Sm Hj Hd. destruct (reach_ninv ovf peer n Sym R) as (Iv & _).
  apply (forwarding_some (db_links (nodes n s)) (table_at n) s) with (n := k); auto.
  2:{ exists 0. constructor. }
  intros x Hx. specialize (Hj x Hx).
  pose proof (ls_converges_partial ovf peer n Sym R F s x Hj) as Same.
  destruct (n_linv _ _ Iv x) as [A B C]. destruct (n_linv _ _ Iv s) as [As Bs Cs].
  assert (Sl : forall p, In p (links (db (nodes n x))) <-> In p (links (db (nodes n s)))).
  { intros (u, v). rewrite <- !seq_of_in. split; intros (q & Hq); exists q.
    - apply knows_seq; [apply Iv|]. apply Same. apply knows_seq; [apply Iv | auto].
    - apply knows_seq; [apply Iv|]. apply Same. apply knows_seq; [apply Iv | auto]. }
  destruct (built_length _ _ A C) as (ops & L & rs & E1 & E2 & E3 & E4).
  exists ops, L, rs, (gr (nodes n x)). split; auto. split; [intros p; rewrite E3; apply Sl|]. split.
  - unfold small in *. rewrite E4.
    assert (length (links (db (nodes n x))) = length (links (db (nodes n s)))).
    { pose proof (links_nodup _ A) as N1. pose proof (links_nodup _ As) as N2.
      assert (length (links (db (nodes n x))) <= length (links (db (nodes n s))))
        by (apply NoDup_incl_length; auto; intros p; apply Sl).
      assert (length (links (db (nodes n s))) <= length (links (db (nodes n x))))
        by (apply NoDup_incl_length; auto; intros p; apply Sl). lia. }
    unfold links in H. rewrite !map_length in H. rewrite H. unfold db_links in Sm. now rewrite map_length in Sm.
  - split; auto. unfold table_at. now destruct (graph_routing_table wrap (gr (nodes n x)) ROUTING_SIMPLE x).
Qed.
Print Assumptions ls_converged_forwarding_partial.

(* Two nodes with one management flow and a data transfer connection:
   both announce, both messages arrive. *)
Definition duo_peer (x fd : N) : option (N * N) :=
  match x, fd with 1, 12 => Some (2, 21) | 2, 21 => Some (1, 12) | _, _ => None end%N.

Example duo_converges : exists n, net_reach trap duo_peer n /\ flying n = [] /\
  joined duo_peer n 1 2 /\ db_links (nodes n 1) = [(2, 1); (1, 2)]%N /\
  db_links (nodes n 2) = [(2, 1); (1, 2)]%N /\
  forward (fun x d => first_hop (table_at n x) d) 2 1 1 = Some 2%N.
Proof.
  set (n0 := Net (fun x => ls_init x ROUTING_SIMPLE) []).
  assert (R0 : net_reach trap duo_peer n0) by apply (reach_start trap duo_peer (fun _ => ROUTING_SIMPLE)).
  assert (Local : forall n x e, net_reach trap duo_peer n ->
    match e with Recv _ _ _ | Update _ | DtDel _ _ => False | _ => True end -> good_event x e ->
    forall l o, ls_step trap (nodes n x) e = Ok (l, o) ->
    net_reach trap duo_peer (Net (set_node n x l) (flying n ++ wire duo_peer x (snd o)))).
  { intros n x e R Hk G l o E. eapply reach_local; [exact R| |exact G|].
    - constructor; [|exact E]. intros fd m now ->. exact Hk.
    - destruct e; cbn; auto; contradiction. }
  pose proof (Local _ 1 (MgmtAdd 2 12) R0 Logic.I Logic.I _ _ eq_refl)%N as R1.
  match type of R1 with net_reach _ _ ?n => set (n1 := n) in R1 end.
  pose proof (Local _ 2 (MgmtAdd 1 21) R1 Logic.I Logic.I _ _ eq_refl)%N as R2.
  match type of R2 with net_reach _ _ ?n => set (n2 := n) in R2 end.
  assert (G3 : good_event 1 (DtAdd 2 112 0)) by (cbn; discriminate).
  pose proof (Local _ 1 (DtAdd 2 112 0) R2 Logic.I G3 _ _ eq_refl)%N as R3.
  match type of R3 with net_reach _ _ ?n => set (n3 := n) in R3 end.
  assert (G4 : good_event 2 (DtAdd 1 121 0)) by (cbn; discriminate).
  pose proof (Local _ 2 (DtAdd 1 121 0) R3 Logic.I G4 _ _ eq_refl)%N as R4.
  match type of R4 with net_reach _ _ ?n => set (n4 := n) in R4 end.
  assert (F4 : flying n4 = [] ++ Flight 2 21 (Lsm 1 2 0) :: [Flight 1 12 (Lsm 2 1 0)])
    by (vm_compute; reflexivity).
  pose proof (reach_deliver _ _ _ _ _ _ _ R4
    (net_deliver_intro trap duo_peer n4 2 (Lsm 1 2 0) _ 21 0 _ _ _ _ F4 eq_refl)%N) as R5.
  match type of R5 with net_reach _ _ ?n => set (n5 := n) in R5 end.
  assert (F5 : flying n5 = [] ++ Flight 1 12 (Lsm 2 1 0) :: []) by (vm_compute; reflexivity).
  pose proof (reach_deliver _ _ _ _ _ _ _ R5
    (net_deliver_intro trap duo_peer n5 1 (Lsm 2 1 0) _ 12 0 _ _ _ _ F5 eq_refl)%N) as R6.
  match type of R6 with net_reach _ _ ?n => set (n6 := n) in R6 end.
  exists n6. split; [exact R6|]. split; [vm_compute; reflexivity|]. split.
  { apply (joined_step duo_peer n6 1 12 2 21 2)%N; [reflexivity | vm_compute; now left | vm_compute; now left | constructor]. }
  split; [vm_compute; reflexivity|]. split; vm_compute; reflexivity.
Qed.

(* A link that goes down and comes back is announced with number 0, which
   the other nodes ignore; although the node announces its link every 15
   seconds, it expires elsewhere.  Node 1 does es; its announcements
   arrive at node 9 at once, in order. *)
Fixpoint feed (fd : N) (es : list event) (os : list (bool * list (N * lsm))) (now : Z) : list event :=
  match es, os with
  | e :: es', (_, out) :: os' =>
      let now' := match e with DtAdd _ _ t | Update t => t | _ => now end in
      map (fun p => Recv fd (snd p) now') out ++ [Update now'] ++ feed fd es' os' now'
  | _, _ => []
  end.

Theorem ls_returning_link_refuted :
  let es := [MgmtAdd 9 19; DtAdd 2 12 0; Update 15; Update 30; Update 45; Update 60; Update 75;
             DtDel 2 12; DtAdd 2 12 76; Update 90; Update 105; Update 120; Update 135; Update 140]%N in
  match ls_run trap (ls_init 1 ROUTING_SIMPLE) es with
  | Ok (l1, os) =>
      match ls_run trap (ls_init 9 ROUTING_SIMPLE) (MgmtAdd 1 91 :: feed 91 es os 0)%N with
      | Ok (l9, _) => In (1, 2)%N (db_links l1) /\ ~ In (1, 2)%N (db_links l9)
      | _ => False
      end
  | _ => False
  end.
Proof.
  vm_compute. split; [now left|]. intros [].
Qed.
Print Assumptions ls_returning_link_refuted.

(* ---- C62: the forwarding table ---- *)

(* When a link was added, or a pending change is processed while the
   database has an entry: the forwarding table has, for each destination
   of the routing table whose next hop has a data transfer connection,
   one entry with the flow of that connection. *)
Theorem ls_forwarding_current_partial : forall ovf l e l' o, state_of ovf l -> policy l = ROUTING_SIMPLE ->
  good_event (own l) e -> small (db_links l') -> ls_step ovf l e = Ok (l', o) ->
  (e = Recalc /\ modified l = true /\ db_links l <> []) \/
  (exists p, In p (db_links l') /\ ~ In p (db_links l)) ->
  exists t, shortest_table (db_links l') (own l') t /\ NoDup (map fst (fwd l')) /\
    forall d fds, In (d, fds) (fwd l') <->
      exists h fd, In (d, [h]) t /\ In (Nb h fd NB_DT) (nbs l') /\ fds = [fd].
Proof.
  intros ovf l e l' o Hl P G Sm E H. apply state_inv in Hl as (I & Hs).
  destruct (step_fwd ovf l e l' o I G P Hs E Sm) as (t & H1 & H2 & H3); [|exists t; auto].
  destruct H as [(H1 & H2 & H3)|H]; [left|right; exact H]. split; auto. split; auto.
  intros X. apply H3. unfold db_links. now rewrite X.
Qed.
Print Assumptions ls_forwarding_current_partial.

Example ls_forwarding_example :
  match ls_run trap (ls_init 1 ROUTING_SIMPLE)
    [DtAdd 2 12 0; Recv 21 (Lsm 2 1 0) 0; Recv 21 (Lsm 2 3 4) 1]%N with
  | Ok (l, _) => match ls_step trap l (Recv 21 (Lsm 3 2 0) 2)%N with
     | Ok (l', _) => In (3, 2)%N (db_links l') /\ ~ In (3, 2)%N (db_links l) /\ fwd l' = [(3, [12]); (2, [12])]%N
     | _ => False end
  | _ => False
  end.
Proof. vm_compute. split; [auto|]. split; [|reflexivity]. intros H. repeat destruct H as [H|H]; try discriminate; exact H. Qed.

(* A link that expires leaves the forwarding table as it was: node 3 can
   no longer be reached, yet packets for it are still sent to node 2. *)
Theorem ls_forwarding_expired_refuted :
  match ls_run trap (ls_init 1 ROUTING_SIMPLE)
    [DtAdd 2 12 0; Recv 21 (Lsm 2 1 0) 0; Recv 21 (Lsm 2 3 0) 0; Recv 21 (Lsm 3 2 0) 0; Recalc;
     Update 30; Recv 21 (Lsm 2 1 1) 30; Update 61; Recalc; Recalc]%N with
  | Ok (l, _) => db_links l = [(2, 1); (1, 2)]%N /\ In (3, [12])%N (fwd l)
  | _ => False
  end.
Proof. vm_compute. split; [reflexivity|]. auto. Qed.
Print Assumptions ls_forwarding_expired_refuted.

(* The last link goes: the table is not recalculated at all. *)
Theorem ls_forwarding_last_link_refuted :
  match ls_run trap (ls_init 1 ROUTING_SIMPLE)
    [DtAdd 2 12 0; Recv 21 (Lsm 2 1 0) 0; Update 30; Update 61; DtDel 2 12; Recalc; Recalc]%N with
  | Ok (l, _) => db_links l = [] /\ nbs l = [] /\ modified l = false /\ fwd l = [(2, [12])]%N
  | _ => False
  end.
Proof. vm_compute. auto. Qed.
Print Assumptions ls_forwarding_last_link_refuted.

(* A second connection to the same neighbour takes the place of the
   first, but the forwarding table keeps the old flow. *)
Theorem ls_forwarding_reconnect_refuted :
  match ls_run trap (ls_init 1 ROUTING_SIMPLE)
    [DtAdd 2 12 0; Recv 21 (Lsm 2 1 0) 0; Recalc; DtAdd 2 13 1; Recalc]%N with
  | Ok (l, _) => nbs l = [Nb 2 13 NB_DT] /\ modified l = false /\ fwd l = [(2, [12])]%N
  | _ => False
  end.
Proof. vm_compute. auto. Qed.
Print Assumptions ls_forwarding_reconnect_refuted.

(* ---- C63: a node's own links are its connections ---- *)

(* One data transfer connection to a node at a time, refreshed in time;
   no announcement of a link of the node itself comes in.  Then the links
   the node announces are those of its connections. *)
Theorem ls_own_links_partial : forall ovf me a es l os cs, Forall (good_event me) es ->
  Forall (fun e => match e with Recv _ m _ => m_src m <> me | _ => True end) es ->
  ls_run ovf (ls_init me a) es = Ok (l, os) ->
  conn_run [] (map (fun e => match e with
    | DtAdd addr fd now => Up addr fd now | DtDel addr fd => Down addr fd
    | Update now => Round now | _ => Other end) es) = Some cs ->
  forall d, In (me, d) (db_links l) <-> exists c, In c cs /\ c_addr c = d.
Proof.
  intros ovf me a es l os cs G Nm E Ec d.
  destruct (run_linv ovf es _ l os (linv_init me a) G E) as (I & Eo & _). cbn [own ls_init] in Eo.
  destruct (own_run ovf es (ls_init me a) l os [] cs (linv_init me a) G Nm E Ec) as [_ Own].
  { constructor; cbn; [constructor|]. intros d0 t. split; intros (x & []). }
  rewrite Eo in Own. split.
  - intros Hi. apply in_map_iff in Hi as (b & Eb & Hb). destruct b as [s' d' q t]. cbn in Eb.
    assert (s' = me) by congruence. assert (d' = d) by congruence. subst s' d'.
    destruct (proj1 (Own d t)) as (fd & Hc); [eauto|]. exists (Conn d fd t). auto.
  - intros ([d' fd t] & Hc & Ed). cbn in Ed. subst d'.
    destruct (proj2 (Own d t)) as (q & Hq); [eauto|].
    apply in_map_iff. exists (Adj me d q t). auto.
Qed.
Print Assumptions ls_own_links_partial.

Example ls_own_links_example :
  conn_run [] [Up 2 12 0; Up 3 13 10; Round 15; Other; Down 2 12; Round 30; Up 2 14 31]%N
  = Some [Conn 2 14 31; Conn 3 13 30]%N.
Proof. reflexivity. Qed.

(* Of two connections to one node, closing the first withdraws the link
   of the second. *)
Theorem ls_two_connections_refuted :
  match ls_run trap (ls_init 1 ROUTING_SIMPLE) [DtAdd 2 12 0; DtAdd 2 13 1; DtDel 2 12]%N with
  | Ok (l, _) => nbs l = [Nb 2 13 NB_DT] /\ db_links l = []
  | _ => False
  end.
Proof. vm_compute. auto. Qed.
Print Assumptions ls_two_connections_refuted.

(* A link that was withdrawn comes back when another node replicates its
   database; the node then keeps announcing it, with rising numbers, for
   ever. *)
Theorem ls_withdrawn_link_returns_refuted :
  match ls_run trap (ls_init 1 ROUTING_SIMPLE)
    [MgmtAdd 9 19; DtAdd 2 12 0; DtDel 2 12; Recv 19 (Lsm 1 2 0) 10; Update 60; Update 120]%N with
  | Ok (l, os) => nbs l = [Nb 9 19 NB_MGMT] /\ In (1, 2)%N (db_links l) /\
      map snd os = [[]; [(19, Lsm 1 2 0)]; []; []; [(19, Lsm 1 2 1)]; [(19, Lsm 1 2 2)]]%N
  | _ => False
  end.
Proof. vm_compute. auto. Qed.
Print Assumptions ls_withdrawn_link_returns_refuted.
