(* The graph as an association list from addresses to neighbours. *)

From Coq Require Import NArith ZArith List Bool Lia Sorted Arith.
From Coq Require Import ZifyBool ZifyNat ZifyN.
From Verif Require Import GraphModel GraphSpec.
Import ListNotations.

(* ---- Pointers ---- *)

Definition ids (g : graph) : list N := map vid (gvs g).
Definition addrs (g : graph) : list N := map vaddr (gvs g).

Definition addr_of (g : graph) (id : N) : N :=
  match deref g id with Some v => vaddr v | None => 0%N end.

Record wfp (g : graph) : Prop := WFP
  { p_sorted : StronglySorted N.lt (addrs g);
    p_ids : NoDup (ids g);
    p_fresh : forall v, In v (gvs g) -> (vid v < gnext g)%N;
    p_index : forall i v, nth_error (gvs g) i = Some v -> vindex v = Z.of_nat i;
    p_nr : gnr g = Z.of_nat (length (gvs g));
    p_nb : forall v e, In v (gvs g) -> In e (vedges v) -> In (enb e) (ids g) }.

Lemma find_some_iff : forall (A : Type) (f : A -> N) (l : list A) k x,
  NoDup (map f l) ->
  find (fun v => N.eqb (f v) k) l = Some x <-> In x l /\ f x = k.
Proof.
  induction l as [|a l IH]; intros k x Hnd; cbn.
  - split; [discriminate | intros [[] _]].
  - cbn in Hnd. inversion Hnd as [|? ? Hn Hnd']; subst.
    destruct (N.eqb_spec (f a) k) as [E|E].
    + split.
      * intros H; injection H as ->. auto.
      * intros [[->|Hi] Hf]; [reflexivity|].
        exfalso. apply Hn. rewrite E, <- Hf. now apply in_map.
    + rewrite IH by assumption. split.
      * intros [H1 H2]; auto.
      * intros [[->|Hi] Hf]; [congruence | auto].
Qed.

Lemma find_none_iff : forall (A : Type) (f : A -> N) (l : list A) k,
  find (fun v => N.eqb (f v) k) l = None <-> ~ In k (map f l).
Proof.
  induction l as [|a l IH]; intros k; cbn.
  - split; auto.
  - destruct (N.eqb_spec (f a) k) as [E|E].
    + split; [discriminate | intros H; exfalso; auto].
    + rewrite IH. split.
      * intros H [H1|H1]; auto.
      * intros H H1; auto.
Qed.

Lemma sorted_nodup : forall l, StronglySorted N.lt l -> NoDup l.
Proof.
  induction 1 as [|a l Hs IH Hf]; constructor; auto.
  intros Hi. rewrite Forall_forall in Hf. specialize (Hf _ Hi). lia.
Qed.

Section Ptr.
  Variable g : graph.
  Hypothesis W : wfp g.

  Lemma deref_iff : forall id v, deref g id = Some v <-> In v (gvs g) /\ vid v = id.
  Proof. intros. apply find_some_iff, (p_ids g W). Qed.

  Lemma find_vertex_iff : forall a v,
    find_vertex g a = Some v <-> In v (gvs g) /\ vaddr v = a.
  Proof. intros. apply find_some_iff. apply sorted_nodup, (p_sorted g W). Qed.

  Lemma deref_in : forall id, In id (ids g) -> exists v, deref g id = Some v.
  Proof.
    intros id H. apply in_map_iff in H as (v & Hv & Hi).
    exists v. apply deref_iff. auto.
  Qed.

  Lemma addr_of_vid : forall v, In v (gvs g) -> addr_of g (vid v) = vaddr v.
  Proof.
    intros v H. unfold addr_of.
    assert (E : deref g (vid v) = Some v) by (apply deref_iff; auto).
    now rewrite E.
  Qed.

  Lemma same_addr : forall v w, In v (gvs g) -> In w (gvs g) -> vaddr v = vaddr w -> v = w.
  Proof.
    intros v w Hv Hw E.
    assert (E1 : find_vertex g (vaddr w) = Some v) by (apply find_vertex_iff; auto).
    assert (E2 : find_vertex g (vaddr w) = Some w) by (apply find_vertex_iff; auto).
    congruence.
  Qed.

  Lemma addr_of_inj : forall i j, In i (ids g) -> In j (ids g) ->
    addr_of g i = addr_of g j -> i = j.
  Proof.
    intros i j Hi Hj E.
    apply in_map_iff in Hi as (v & <- & Hv). apply in_map_iff in Hj as (w & <- & Hw).
    rewrite !addr_of_vid in E by assumption. f_equal. now apply same_addr.
  Qed.

  Lemma find_edge_ok : forall es dst,
    (forall e, In e es -> In (enb e) (ids g)) ->
    find_edge g es dst = Ok (find (fun e => N.eqb (addr_of g (enb e)) dst) es).
  Proof.
    induction es as [|e es IH]; intros dst H; [reflexivity|].
    cbn [find_edge find].
    destruct (deref_in (enb e)) as (v & Hv). { apply H; now left. }
    unfold addr_of. rewrite Hv. cbn.
    destruct (N.eqb (vaddr v) dst); [reflexivity|].
    rewrite IH; [reflexivity|]. intros; apply H; now right.
  Qed.

End Ptr.

(* ---- The clean graph ---- *)

Notation cgraph := (list (N * list (N * Z))).

Definition clean_edges (g : graph) (es : list edge) : list (N * Z) :=
  map (fun e => (addr_of g (enb e), eann e)) es.

Definition clean (g : graph) : cgraph :=
  map (fun v => (vaddr v, clean_edges g (vedges v))) (gvs g).

Fixpoint assoc {B : Type} (l : list (N * B)) (k : N) : option B :=
  match l with
  | [] => None
  | (x, y) :: l' => if N.eqb x k then Some y else assoc l' k
  end.

Fixpoint c_ins (a : N) (cg : cgraph) : cgraph :=
  match cg with
  | [] => [(a, [])]
  | (x, es) :: cg' => if N.ltb a x then (a, []) :: cg else (x, es) :: c_ins a cg'
  end.

Definition c_getv (a : N) (cg : cgraph) : cgraph :=
  match assoc cg a with Some _ => cg | None => c_ins a cg end.

Definition c_updv (a : N) (f : list (N * Z) -> list (N * Z)) (cg : cgraph) : cgraph :=
  map (fun p => if N.eqb (fst p) a then (fst p, f (snd p)) else p) cg.

Fixpoint c_ann (b : N) (d : Z) (es : list (N * Z)) : list (N * Z) :=
  match es with
  | [] => []
  | (x, n) :: es' => if N.eqb x b then (x, (n + d)%Z) :: es' else (x, n) :: c_ann b d es'
  end.

Fixpoint c_rem (b : N) (es : list (N * Z)) : list (N * Z) :=
  match es with
  | [] => []
  | (x, n) :: es' => if N.eqb x b then es' else (x, n) :: c_rem b es'
  end.

Definition c_announce (b : N) (es : list (N * Z)) : list (N * Z) :=
  match assoc es b with
  | Some _ => c_ann b 1 es
  | None => (b, 1%Z) :: es
  end.

Definition c_withdraw (b : N) (es : list (N * Z)) : list (N * Z) :=
  match assoc es b with
  | Some n => if Z.eqb (n - 1) 0 then c_rem b es else c_ann b (-1) es
  | None => es
  end.

Definition c_update (s d : N) (cg : cgraph) : cgraph :=
  c_updv d (c_announce s) (c_updv s (c_announce d) (c_getv d (c_getv s cg))).

Definition c_reap (a : N) (cg : cgraph) : cgraph :=
  match assoc cg a with
  | Some [] => filter (fun p => negb (N.eqb (fst p) a)) cg
  | _ => cg
  end.

Definition c_del (s d : N) (cg : cgraph) : cgraph :=
  c_reap d (c_reap s (c_updv d (c_withdraw s) (c_updv s (c_withdraw d) cg))).

(* ---- Refinement ---- *)

Lemma clean_assoc : forall g, wfp g -> forall a,
  assoc (clean g) a = option_map (fun v => clean_edges g (vedges v)) (find_vertex g a).
Proof.
  intros g W a. unfold clean, find_vertex.
  generalize (gvs g). induction l as [|v l IH]; [reflexivity|].
  cbn [map assoc find]. destruct (N.eqb (vaddr v) a); [reflexivity | exact IH].
Qed.

Lemma clean_keys : forall g, map fst (clean g) = addrs g.
Proof. intros. unfold clean, addrs. rewrite map_map. now apply map_ext. Qed.

(* The graph with the edges of one vertex changed. *)
Section UpdEdges.
  Variable g : graph.
  Hypothesis W : wfp g.
  Variable id : N.
  Variable f : list edge -> list edge.
  Hypothesis Hid : In id (ids g).
  Hypothesis Hf : forall v e, deref g id = Some v -> In e (f (vedges v)) -> In (enb e) (ids g).

  Let g' := upd_vertex g id (set_edges f).

  Lemma upd_ids : ids g' = ids g.
  Proof.
    unfold g', ids, upd_vertex, with_vs. cbn [gvs]. rewrite map_map. apply map_ext.
    intros v. destruct (N.eqb (vid v) id); reflexivity.
  Qed.

  Lemma upd_addrs : addrs g' = addrs g.
  Proof.
    unfold g', addrs, upd_vertex, with_vs. cbn [gvs]. rewrite map_map. apply map_ext.
    intros v. destruct (N.eqb (vid v) id); reflexivity.
  Qed.

  Lemma upd_deref : forall k, deref g' k =
    option_map (fun v => if N.eqb (vid v) id then set_edges f v else v) (deref g k).
  Proof.
    intros k. unfold g', deref, upd_vertex, with_vs. cbn [gvs].
    generalize (gvs g). induction l as [|v l IH]; [reflexivity|].
    cbn [map find].
    assert (E : vid (if N.eqb (vid v) id then set_edges f v else v) = vid v)
      by (destruct (N.eqb (vid v) id); reflexivity).
    rewrite E. destruct (N.eqb (vid v) k); [reflexivity | exact IH].
  Qed.

  Lemma upd_addr_of : forall k, addr_of g' k = addr_of g k.
  Proof.
    intros k. unfold addr_of. rewrite upd_deref. destruct (deref g k) as [v|]; [|reflexivity].
    cbn. destruct (N.eqb (vid v) id); reflexivity.
  Qed.

  Lemma upd_wfp : wfp g'.
  Proof.
    constructor.
    - rewrite upd_addrs. apply (p_sorted g W).
    - rewrite upd_ids. apply (p_ids g W).
    - unfold g', upd_vertex, with_vs. cbn [gvs gnext]. intros v Hv.
      apply in_map_iff in Hv as (w & <- & Hw). apply (p_fresh g W) in Hw.
      destruct (N.eqb (vid w) id); exact Hw.
    - unfold g', upd_vertex, with_vs. cbn [gvs]. intros i v Hv.
      rewrite nth_error_map in Hv. destruct (nth_error (gvs g) i) as [w|] eqn:E; [|discriminate].
      injection Hv as <-. apply (p_index g W) in E. destruct (N.eqb (vid w) id); exact E.
    - unfold g', upd_vertex, with_vs. cbn [gvs gnr]. rewrite map_length. apply (p_nr g W).
    - intros v e Hv He. rewrite upd_ids.
      unfold g', upd_vertex, with_vs in Hv. cbn [gvs] in Hv.
      apply in_map_iff in Hv as (w & <- & Hw).
      destruct (N.eqb_spec (vid w) id) as [E|E].
      + cbn in He. apply (Hf w); [|exact He]. apply deref_iff; auto.
      + apply (p_nb g W w); auto.
  Qed.

  Lemma upd_clean : forall cf,
    (forall v, deref g id = Some v -> clean_edges g (f (vedges v)) = cf (clean_edges g (vedges v))) ->
    clean g' = c_updv (addr_of g id) cf (clean g).
  Proof.
    intros cf Hcf. unfold clean, c_updv.
    assert (Hce : forall es, clean_edges g' es = clean_edges g es).
    { intros es. unfold clean_edges. apply map_ext. intros e. now rewrite upd_addr_of. }
    unfold g' at 2. unfold upd_vertex, with_vs. cbn [gvs]. rewrite !map_map.
    apply map_ext_in. intros v Hv. cbn [fst snd]. rewrite Hce.
    destruct (deref_in g W id Hid) as (w & Hw).
    pose proof (proj1 (deref_iff g W id w) Hw) as (Hwi & Hwv).
    assert (Ea : addr_of g id = vaddr w) by (unfold addr_of; now rewrite Hw).
    destruct (N.eqb_spec (vid v) id) as [E|E].
    - assert (deref g id = Some v) by (apply deref_iff; auto).
      assert (w = v) by congruence. subst w.
      rewrite Ea, N.eqb_refl. cbn. f_equal. now apply Hcf.
    - destruct (N.eqb_spec (vaddr v) (addr_of g id)) as [E2|E2]; [|reflexivity].
      exfalso. rewrite Ea in E2. apply E. rewrite <- Hwv. f_equal.
      now apply (same_addr g W).
  Qed.

End UpdEdges.

(* Edge lists. *)
Lemma clean_upd_ann : forall g, wfp g -> forall nb d es,
  In nb (ids g) -> (forall e, In e es -> In (enb e) (ids g)) ->
  clean_edges g (upd_ann nb d es) = c_ann (addr_of g nb) d (clean_edges g es).
Proof.
  intros g W nb d es Hnb. induction es as [|e es IH]; intros He; [reflexivity|].
  cbn [upd_ann clean_edges map c_ann].
  destruct (N.eqb_spec (enb e) nb) as [E|E].
  - rewrite E, N.eqb_refl. cbn. reflexivity.
  - destruct (N.eqb_spec (addr_of g (enb e)) (addr_of g nb)) as [E2|E2].
    + exfalso. apply E. apply (addr_of_inj g W); auto. apply He; now left.
    + cbn [map]. f_equal. apply IH. intros; apply He; now right.
Qed.

Lemma clean_rem_edge : forall g, wfp g -> forall nb es,
  In nb (ids g) -> (forall e, In e es -> In (enb e) (ids g)) ->
  clean_edges g (rem_edge nb es) = c_rem (addr_of g nb) (clean_edges g es).
Proof.
  intros g W nb es Hnb. induction es as [|e es IH]; intros He; [reflexivity|].
  cbn [rem_edge clean_edges map c_rem].
  destruct (N.eqb_spec (enb e) nb) as [E|E].
  - rewrite E, N.eqb_refl. cbn. reflexivity.
  - destruct (N.eqb_spec (addr_of g (enb e)) (addr_of g nb)) as [E2|E2].
    + exfalso. apply E. apply (addr_of_inj g W); auto. apply He; now left.
    + cbn [map]. f_equal. apply IH. intros; apply He; now right.
Qed.

Lemma clean_find : forall g b es,
  option_map eann (find (fun e => N.eqb (addr_of g (enb e)) b) es) = assoc (clean_edges g es) b.
Proof.
  intros g b es. induction es as [|e es IH]; [reflexivity|].
  cbn [find clean_edges map assoc].
  destruct (N.eqb (addr_of g (enb e)) b); [reflexivity | exact IH].
Qed.

Lemma upd_ann_in : forall nb d es e, In e (upd_ann nb d es) ->
  enb e = nb \/ In e es.
Proof.
  induction es as [|x es IH]; cbn; [tauto|]. intros e.
  destruct (N.eqb (enb x) nb); cbn.
  - intros [<-|H]; auto.
  - intros [<-|H]; auto. destruct (IH _ H); auto.
Qed.

Lemma rem_edge_in : forall nb es e, In e (rem_edge nb es) -> In e es.
Proof.
  induction es as [|x es IH]; cbn; [tauto|]. intros e.
  destruct (N.eqb (enb x) nb); cbn; auto.
  intros [<-|H]; auto.
Qed.

Lemma announce_ok : forall g v nb, wfp g -> In v (ids g) -> In nb (ids g) ->
  exists g', announce g v nb (addr_of g nb) = Ok g' /\ wfp g' /\ ids g' = ids g /\
    (forall k, addr_of g' k = addr_of g k) /\
    clean g' = c_updv (addr_of g v) (c_announce (addr_of g nb)) (clean g).
Proof.
  intros g v nb W Hv Hnb.
  destruct (deref_in g W v Hv) as (vv & Hd).
  pose proof (proj1 (deref_iff g W v vv) Hd) as (Hvv & Hvid).
  assert (Hes : forall e, In e (vedges vv) -> In (enb e) (ids g)).
  { intros e He. now apply (p_nb g W vv). }
  unfold announce. rewrite Hd. cbn [lift rbind].
  rewrite (find_edge_ok g W) by assumption. cbn [rbind].
  destruct (find (fun e => N.eqb (addr_of g (enb e)) (addr_of g nb)) (vedges vv)) as [e|] eqn:F.
  - pose proof (find_some _ _ F) as (Hin & Heq). apply N.eqb_eq in Heq.
    assert (Ee : enb e = nb) by (apply (addr_of_inj g W); auto).
    rewrite Ee.
    eexists. split; [reflexivity|].
    assert (Hf : forall u e0, deref g v = Some u -> In e0 (upd_ann nb 1 (vedges u)) -> In (enb e0) (ids g)).
    { intros u e0 Hu H0. assert (u = vv) by congruence. subst u.
      apply upd_ann_in in H0 as [->|H0]; auto. }
    split; [now apply upd_wfp|]. split; [apply upd_ids|]. split; [intros; apply upd_addr_of|].
    apply upd_clean; auto. intros u Hu. assert (u = vv) by congruence. subst u.
    rewrite clean_upd_ann by auto. unfold c_announce.
    rewrite <- clean_find, F. reflexivity.
  - eexists. split; [reflexivity|].
    assert (E : upd_vertex (add_edge g v nb) v (set_edges (upd_ann nb 1))
            = upd_vertex g v (set_edges (fun es => Edge nb 1 :: es))).
    { unfold upd_vertex, add_edge, upd_vertex, with_vs. cbn [gvs gnr gnext].
      f_equal. rewrite map_map. apply map_ext. intros w.
      destruct (N.eqb (vid w) v) eqn:E.
      - unfold set_edges. cbn. rewrite E. now rewrite N.eqb_refl.
      - now rewrite E. }
    rewrite E.
    assert (Hf : forall u e0, deref g v = Some u -> In e0 (Edge nb 1 :: vedges u) -> In (enb e0) (ids g)).
    { intros u e0 Hu [<-|H0]; auto. assert (u = vv) by congruence. subst u. auto. }
    split; [now apply upd_wfp|]. split; [apply upd_ids|]. split; [intros; apply upd_addr_of|].
    apply upd_clean; auto. intros u Hu. assert (u = vv) by congruence. subst u.
    unfold c_announce. rewrite <- clean_find, F. reflexivity.
Qed.

Lemma withdraw_ok : forall g v nb n, wfp g -> In v (ids g) -> In nb (ids g) ->
  assoc (clean g) (addr_of g v) = Some n ->
  (exists k, assoc n (addr_of g nb) = Some k) ->
  exists g', withdraw g v nb = Ok g' /\ wfp g' /\ ids g' = ids g /\
    (forall k, addr_of g' k = addr_of g k) /\
    clean g' = c_updv (addr_of g v) (c_withdraw (addr_of g nb)) (clean g).
Proof.
  intros g v nb n W Hv Hnb Ha (k & Hk).
  destruct (deref_in g W v Hv) as (vv & Hd).
  pose proof (proj1 (deref_iff g W v vv) Hd) as (Hvv & Hvid).
  assert (Hes : forall e, In e (vedges vv) -> In (enb e) (ids g)).
  { intros e He. now apply (p_nb g W vv). }
  assert (Hn : n = clean_edges g (vedges vv)).
  { rewrite clean_assoc in Ha by assumption.
    assert (E : find_vertex g (addr_of g v) = Some vv).
    { apply find_vertex_iff; auto. split; auto. unfold addr_of. now rewrite Hd. }
    rewrite E in Ha. cbn in Ha. congruence. }
  subst n.
  assert (F : exists e, find (fun e => N.eqb (addr_of g (enb e)) (addr_of g nb)) (vedges vv) = Some e
                 /\ eann e = k).
  { rewrite <- clean_find in Hk. destruct (find _ (vedges vv)) as [e|]; [|discriminate].
    exists e. split; auto. cbn in Hk. congruence. }
  destruct F as (e & F & Hek).
  assert (F2 : find (fun e => N.eqb (enb e) nb) (vedges vv) = Some e).
  { revert F Hes. generalize (vedges vv). clear - W Hnb.
    induction l as [|x l IH]; cbn; [discriminate|]. intros F Hes.
    destruct (N.eqb_spec (addr_of g (enb x)) (addr_of g nb)) as [E|E].
    - apply (addr_of_inj g W) in E; auto. rewrite E, N.eqb_refl. exact F.
    - destruct (N.eqb_spec (enb x) nb); [congruence|]. apply IH; auto. }
  unfold withdraw. rewrite Hd. cbn [lift rbind]. rewrite F2. cbn [lift rbind].
  assert (Hw : c_withdraw (addr_of g nb) (clean_edges g (vedges vv)) =
    if Z.eqb (k - 1) 0 then c_rem (addr_of g nb) (clean_edges g (vedges vv))
    else c_ann (addr_of g nb) (-1) (clean_edges g (vedges vv))).
  { unfold c_withdraw. now rewrite Hk. }
  rewrite Hek. destruct (Z.eqb (k - 1) 0) eqn:Ek.
  - eexists. split; [reflexivity|].
    assert (Hf : forall u e0, deref g v = Some u -> In e0 (rem_edge nb (vedges u)) -> In (enb e0) (ids g)).
    { intros u e0 Hu H0. assert (u = vv) by congruence. subst u.
      apply rem_edge_in in H0; auto. }
    split; [now apply upd_wfp|]. split; [apply upd_ids|]. split; [intros; apply upd_addr_of|].
    apply upd_clean; auto. intros u Hu. assert (u = vv) by congruence. subst u.
    rewrite clean_rem_edge by auto. now rewrite Hw.
  - eexists. split; [reflexivity|].
    assert (Hf : forall u e0, deref g v = Some u -> In e0 (upd_ann nb (-1) (vedges u)) -> In (enb e0) (ids g)).
    { intros u e0 Hu H0. assert (u = vv) by congruence. subst u.
      apply upd_ann_in in H0 as [->|H0]; auto. }
    split; [now apply upd_wfp|]. split; [apply upd_ids|]. split; [intros; apply upd_addr_of|].
    apply upd_clean; auto. intros u Hu. assert (u = vv) by congruence. subst u.
    rewrite clean_upd_ann by auto. now rewrite Hw.
Qed.
