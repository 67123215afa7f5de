(* Adding and removing vertices; the two operations on the clean graph. *)

From Coq Require Import NArith ZArith List Bool Lia Sorted Arith.
From Coq Require Import ZifyBool ZifyNat ZifyN.
From Verif Require Import GraphModel GraphSpec GraphProofs.
Import ListNotations.

Definition ptrs (vs : list vertex) : list (N * N) := map (fun v => (vid v, vaddr v)) vs.

Lemma addr_of_assoc : forall g k,
  addr_of g k = match assoc (ptrs (gvs g)) k with Some a => a | None => 0%N end.
Proof.
  intros g k. unfold addr_of, deref. generalize (gvs g).
  induction l as [|v l IH]; [reflexivity|]. cbn. destruct (N.eqb (vid v) k); auto.
Qed.

Lemma ptrs_app : forall l1 l2, ptrs (l1 ++ l2) = ptrs l1 ++ ptrs l2.
Proof. intros. apply map_app. Qed.

Lemma assoc_app : forall (B : Type) (l1 l2 : list (N * B)) k,
  assoc (l1 ++ l2) k = match assoc l1 k with Some x => Some x | None => assoc l2 k end.
Proof.
  induction l1 as [|[x y] l1 IH]; intros; [reflexivity|]. cbn.
  destruct (N.eqb x k); auto.
Qed.

Lemma bump_ptrs : forall a d vs, ptrs (map (bump_index a d) vs) = ptrs vs.
Proof.
  intros. unfold ptrs. rewrite map_map. apply map_ext. intros v. unfold bump_index.
  destruct (N.ltb a (vaddr v)); reflexivity.
Qed.

Lemma bump_vid : forall a d v, vid (bump_index a d v) = vid v.
Proof. intros. unfold bump_index. destruct (N.ltb a (vaddr v)); reflexivity. Qed.
Lemma bump_vaddr : forall a d v, vaddr (bump_index a d v) = vaddr v.
Proof. intros. unfold bump_index. destruct (N.ltb a (vaddr v)); reflexivity. Qed.
Lemma bump_vedges : forall a d v, vedges (bump_index a d v) = vedges v.
Proof. intros. unfold bump_index. destruct (N.ltb a (vaddr v)); reflexivity. Qed.

Lemma map_bump_id : forall a d l, Forall (fun v => (vaddr v <= a)%N) l ->
  map (bump_index a d) l = l.
Proof.
  intros a d l H. rewrite <- (map_id l) at 2. apply map_ext_in. intros v Hv.
  rewrite Forall_forall in H. specialize (H _ Hv). unfold bump_index.
  destruct (N.ltb_spec a (vaddr v)); [lia | reflexivity].
Qed.

Lemma ins_split : forall id a vs i, StronglySorted N.lt (map vaddr vs) -> ~ In a (map vaddr vs) ->
  exists l1 l2, vs = l1 ++ l2 /\
    ins_vertex id a i vs = l1 ++ Vertex id a [] (i + Z.of_nat (length l1)) :: l2 /\
    Forall (fun v => (vaddr v < a)%N) l1 /\ Forall (fun v => (a < vaddr v)%N) l2.
Proof.
  induction vs as [|v vs IH]; intros i Hs Hn; cbn [ins_vertex].
  - exists [], []. repeat split; auto. cbn. now rewrite Z.add_0_r.
  - cbn [map] in Hs, Hn. inversion Hs as [|? ? Hs' Hf]; subst.
    destruct (N.ltb_spec a (vaddr v)) as [E|E].
    + exists [], (v :: vs). split; [reflexivity|]. split. { cbn. now rewrite Z.add_0_r. }
      split; [constructor|]. constructor; auto. rewrite Forall_forall in *.
      intros w Hw. assert (vaddr v < vaddr w)%N by (apply Hf; now apply in_map). lia.
    + destruct (IH (i + 1)%Z Hs') as (l1 & l2 & E1 & E2 & F1 & F2).
      { intros H; apply Hn; now right. }
      exists (v :: l1), l2. split; [cbn; congruence|]. split.
      { rewrite E2. cbn [app length].
        replace (i + 1 + Z.of_nat (length l1))%Z with (i + Z.of_nat (S (length l1)))%Z by lia.
        reflexivity. }
      split; [|assumption]. constructor; auto.
      assert (vaddr v <> a) by (intros Hq; apply Hn; left; exact Hq). lia.
Qed.

Lemma sorted_app_inv : forall l1 l2, StronglySorted N.lt (l1 ++ l2) ->
  StronglySorted N.lt l1 /\ StronglySorted N.lt l2 /\
  (forall x y, In x l1 -> In y l2 -> (x < y)%N).
Proof.
  induction l1 as [|a l1 IH]; intros l2 H; cbn in *.
  - split; [constructor|]. split; [assumption|]. intros x y [].
  - inversion H as [|? ? H1 H2]; subst. destruct (IH _ H1) as (A & B & D).
    rewrite Forall_forall in H2. split.
    { constructor; auto. rewrite Forall_forall. intros; apply H2, in_or_app; auto. }
    split; auto. intros x y [<-|Hx] Hy; auto. apply H2, in_or_app; auto.
Qed.

Lemma sorted_app : forall l1 l2, StronglySorted N.lt l1 -> StronglySorted N.lt l2 ->
  (forall x y, In x l1 -> In y l2 -> (x < y)%N) -> StronglySorted N.lt (l1 ++ l2).
Proof.
  induction l1 as [|a l1 IH]; intros l2 H1 H2 H; cbn; auto.
  inversion H1 as [|? ? H3 H4]; subst. constructor.
  - apply IH; auto. intros; apply H; auto. now right.
  - rewrite Forall_forall in *. intros x Hx. apply in_app_or in Hx as [Hx|Hx]; auto.
    apply H; auto. now left.
Qed.

Lemma c_ins_app : forall a l1 l2,
  Forall (fun p => (fst p < a)%N) l1 -> Forall (fun p => (a < fst p)%N) l2 ->
  c_ins a (l1 ++ l2) = l1 ++ (a, []) :: l2.
Proof.
  induction l1 as [|[x es] l1 IH]; intros l2 F1 F2; cbn.
  - destruct l2 as [|[y es] l2]; [reflexivity|]. apply Forall_inv in F2. cbn in *.
    destruct (N.ltb_spec a y); [reflexivity | lia].
  - pose proof (Forall_inv F1) as F. cbn in F. destruct (N.ltb_spec a x); [lia|].
    f_equal. apply IH; auto. now apply Forall_inv_tail in F1.
Qed.

Lemma Forall_map_intro : forall (A B : Type) (P : B -> Prop) (f : A -> B) l,
  Forall (fun x => P (f x)) l -> Forall P (map f l).
Proof. intros. rewrite Forall_map. assumption. Qed.

Lemma add_vertex_ok : forall g a g' id, wfp g -> ~ In a (addrs g) ->
  add_vertex g a = (g', id) ->
  wfp g' /\ In id (ids g') /\ addr_of g' id = a /\
  (forall k, In k (ids g) -> In k (ids g') /\ addr_of g' k = addr_of g k) /\
  clean g' = c_ins a (clean g).
Proof.
  intros g a g' id W Hn E. unfold add_vertex in E.
  assert (Hid : id = gnext g) by congruence.
  assert (Hg' : g' = Graph (gnr g + 1) (map (bump_index a 1) (ins_vertex (gnext g) a 0 (gvs g))) (gnext g + 1))
    by congruence. clear E.
  destruct (ins_split (gnext g) a (gvs g) 0 (p_sorted g W) Hn) as (l1 & l2 & E1 & E2 & F1 & F2).
  set (nv := Vertex (gnext g) a [] (Z.of_nat (length l1))) in *.
  assert (Hvs : gvs g' = l1 ++ nv :: map (bump_index a 1) l2).
  { rewrite Hg'. cbn [gvs]. rewrite E2, map_app. cbn [map]. rewrite Z.add_0_l. fold nv.
    rewrite map_bump_id. 2:{ eapply Forall_impl; [|exact F1]. cbn; intros; lia. }
    f_equal. f_equal. unfold bump_index, nv. cbn. now rewrite N.ltb_irrefl. }
  assert (Hp : ptrs (gvs g') = ptrs l1 ++ (gnext g, a) :: ptrs l2).
  { rewrite Hvs, ptrs_app. cbn [ptrs map]. f_equal. f_equal. apply bump_ptrs. }
  assert (Hp0 : ptrs (gvs g) = ptrs l1 ++ ptrs l2) by (rewrite E1; apply ptrs_app).
  assert (Hidsp : forall h, ids h = map fst (ptrs (gvs h))).
  { intros. unfold ids, ptrs. rewrite map_map. reflexivity. }
  assert (Hadp : forall h, addrs h = map snd (ptrs (gvs h))).
  { intros. unfold addrs, ptrs. rewrite map_map. reflexivity. }
  assert (Hfr : ~ In (gnext g) (ids g)).
  { intros H. apply in_map_iff in H as (v & Hv & Hi). apply (p_fresh g W) in Hi. lia. }
  assert (Hold : forall k, In k (ids g) -> addr_of g' k = addr_of g k).
  { intros k Hk. rewrite !addr_of_assoc, Hp, Hp0, !assoc_app.
    destruct (assoc (ptrs l1) k); auto. cbn.
    destruct (N.eqb_spec (gnext g) k); [congruence | reflexivity]. }
  assert (Hnew : In id (ids g')).
  { rewrite Hidsp, Hp, map_app. apply in_or_app. right. cbn. now left. }
  assert (Hin : forall k, In k (ids g) -> In k (ids g')).
  { intros k. rewrite !Hidsp, Hp, Hp0, !map_app, !in_app_iff. cbn. tauto. }
  assert (W' : wfp g').
  { constructor.
    - rewrite Hadp, Hp, map_app. cbn [map snd].
      pose proof (p_sorted g W) as S1. rewrite Hadp, Hp0, map_app in S1.
      apply sorted_app_inv in S1 as (S1 & S2 & S3).
      assert (G1 : forall x, In x (map snd (ptrs l1)) -> (x < a)%N).
      { intros x Hx. unfold ptrs in Hx. rewrite map_map in Hx. apply in_map_iff in Hx as (v & <- & Hv).
        rewrite Forall_forall in F1. now apply F1. }
      assert (G2 : forall x, In x (map snd (ptrs l2)) -> (a < x)%N).
      { intros x Hx. unfold ptrs in Hx. rewrite map_map in Hx. apply in_map_iff in Hx as (v & <- & Hv).
        rewrite Forall_forall in F2. now apply F2. }
      apply sorted_app; auto.
      + constructor; auto. rewrite Forall_forall. exact G2.
      + intros x y Hx [<-|Hy]; auto.
    - rewrite Hidsp, Hp, map_app. cbn [map fst].
      pose proof (p_ids g W) as N1. rewrite Hidsp, Hp0, map_app in N1.
      apply NoDup_Add with (a := gnext g) (l := map fst (ptrs l1) ++ map fst (ptrs l2)).
      + apply Add_app.
      + split; auto. rewrite <- map_app, <- Hp0, <- Hidsp. assumption.
    - intros v Hv. rewrite Hvs in Hv. assert (gnext g' = gnext g + 1)%N by now rewrite Hg'.
      apply in_app_or in Hv as [Hv|[<-|Hv]].
      + assert (vid v < gnext g)%N by (apply (p_fresh g W); rewrite E1; apply in_or_app; auto). lia.
      + cbn. lia.
      + apply in_map_iff in Hv as (w & <- & Hw). rewrite bump_vid.
        assert (vid w < gnext g)%N by (apply (p_fresh g W); rewrite E1; apply in_or_app; auto). lia.
    - intros i v Hi. rewrite Hvs in Hi.
      destruct (lt_dec i (length l1)) as [Hl|Hl].
      + rewrite nth_error_app1 in Hi by assumption. apply (p_index g W). rewrite E1.
        now rewrite nth_error_app1.
      + rewrite nth_error_app2 in Hi by lia. destruct (i - length l1) as [|j] eqn:Ej.
        * cbn in Hi. injection Hi as <-. cbn. lia.
        * cbn [nth_error] in Hi. rewrite nth_error_map in Hi.
          destruct (nth_error l2 j) as [w|] eqn:Ew; [|discriminate]. cbn in Hi. injection Hi as <-.
          assert (Hw : vindex w = Z.of_nat (length l1 + j)).
          { apply (p_index g W). rewrite E1, nth_error_app2 by lia.
            now replace (length l1 + j - length l1) with j by lia. }
          assert (a < vaddr w)%N.
          { rewrite Forall_forall in F2. apply F2. now apply nth_error_In in Ew. }
          unfold bump_index. destruct (N.ltb_spec a (vaddr w)); [|lia]. cbn. lia.
    - rewrite Hg' at 1. cbn [gnr]. rewrite (p_nr g W), Hvs, E1, !app_length. cbn. rewrite map_length. lia.
    - intros v e Hv He. apply Hin. rewrite Hvs in Hv. apply in_app_or in Hv as [Hv|[<-|Hv]].
      + apply (p_nb g W v); auto. rewrite E1. apply in_or_app; auto.
      + destruct He.
      + apply in_map_iff in Hv as (w & <- & Hw). rewrite bump_vedges in He.
        apply (p_nb g W w); auto. rewrite E1. apply in_or_app; auto. }
  assert (Hida : addr_of g' id = a).
  { rewrite addr_of_assoc, Hp, assoc_app.
    destruct (assoc (ptrs l1) id) as [x|] eqn:Ex.
    - exfalso. apply Hfr. rewrite <- Hid. rewrite Hidsp, Hp0, map_app. apply in_or_app. left.
      clear - Ex. induction (ptrs l1) as [|[p q] l IH]; cbn in *; [discriminate|].
      destruct (N.eqb_spec p id); auto.
    - cbn. rewrite Hid, N.eqb_refl. reflexivity. }
  split; [assumption|]. split; [assumption|]. split; [assumption|].
  split; [intros k Hk; auto|].
  assert (Hce : forall es, (forall e, In e es -> In (enb e) (ids g)) ->
            clean_edges g' es = clean_edges g es).
  { intros es Hes. unfold clean_edges. apply map_ext_in. intros e He. now rewrite Hold by auto. }
  unfold clean at 1. rewrite Hvs, map_app. cbn [map]. unfold clean. rewrite E1, map_app.
  rewrite c_ins_app.
  - f_equal; [|f_equal].
    + apply map_ext_in. intros v Hv. f_equal. apply Hce. intros e He. apply (p_nb g W v); auto.
      rewrite E1. apply in_or_app; auto.
    + rewrite map_map. apply map_ext_in. intros v Hv. rewrite bump_vaddr, bump_vedges.
      f_equal. apply Hce. intros e He. apply (p_nb g W v); auto.
      rewrite E1. apply in_or_app; auto.
  - apply Forall_map_intro. cbn. exact F1.
  - apply Forall_map_intro. cbn. exact F2.
Qed.

Lemma get_vertex_ok : forall g a g' id, wfp g -> get_vertex g a = (g', id) ->
  wfp g' /\ In id (ids g') /\ addr_of g' id = a /\
  (forall k, In k (ids g) -> In k (ids g') /\ addr_of g' k = addr_of g k) /\
  clean g' = c_getv a (clean g).
Proof.
  intros g a g' id W E. unfold get_vertex in E. unfold c_getv. rewrite clean_assoc by assumption.
  destruct (find_vertex g a) as [v|] eqn:F.
  - assert (g' = g) by congruence. assert (id = vid v) by congruence. subst g' id.
    apply find_vertex_iff in F as (Hv & Ha); auto.
    split; [assumption|]. split; [now apply in_map|]. split.
    { rewrite addr_of_vid; auto. }
    split; [auto|]. reflexivity.
  - cbn [option_map]. apply add_vertex_ok; auto. now apply find_none_iff in F.
Qed.

Lemma update_refines : forall g s d, wfp g ->
  exists g', graph_update_edge g s d = Ok g' /\ wfp g' /\ clean g' = c_update s d (clean g).
Proof.
  intros g s d W. unfold graph_update_edge.
  destruct (get_vertex g s) as [g1 v] eqn:E1.
  destruct (get_vertex g1 d) as [g2 nb] eqn:E2.
  apply get_vertex_ok in E1 as (W1 & I1 & A1 & K1 & C1); auto.
  apply get_vertex_ok in E2 as (W2 & I2 & A2 & K2 & C2); auto.
  destruct (K2 _ I1) as (I1' & A1').
  destruct (announce_ok g2 v nb W2 I1' I2) as (g3 & E3 & W3 & I3 & A3 & C3).
  rewrite A2 in E3. rewrite E3. cbn [rbind].
  destruct (announce_ok g3 nb v W3) as (g4 & E4 & W4 & I4 & A4 & C4); try (rewrite I3; assumption).
  rewrite (A3 v), A1', A1 in E4. rewrite E4. exists g4. split; [reflexivity|]. split; [assumption|].
  rewrite C4, C3, C2, C1, !A3, A2, A1', A1. reflexivity.
Qed.

(* ---- Removing a vertex ---- *)

Lemma in_split_ids : forall g id v, wfp g -> deref g id = Some v ->
  exists l1 l2, gvs g = l1 ++ v :: l2 /\ vid v = id /\
    filter (fun w => negb (N.eqb (vid w) id)) (gvs g) = l1 ++ l2 /\
    Forall (fun w => (vaddr w < vaddr v)%N) l1 /\ Forall (fun w => (vaddr v < vaddr w)%N) l2 /\
    (forall w, In w (l1 ++ l2) -> vid w <> id).
Proof.
  intros g id v W Hd. apply deref_iff in Hd as (Hi & Hv); auto.
  apply in_split in Hi as (l1 & l2 & E). exists l1, l2.
  pose proof (p_ids g W) as Hnd. unfold ids in Hnd. rewrite E, map_app in Hnd. cbn [map] in Hnd.
  apply NoDup_remove_2 in Hnd.
  assert (Hne : forall w, In w (l1 ++ l2) -> vid w <> id).
  { intros w Hw Hwi. apply Hnd. rewrite <- map_app. rewrite Hv, <- Hwi. now apply in_map. }
  split; [assumption|]. split; [assumption|]. split.
  { rewrite E, filter_app. cbn [filter]. rewrite Hv, N.eqb_refl. cbn [negb].
    assert (Hf : forall l, (forall w, In w l -> vid w <> id) ->
               filter (fun w => negb (N.eqb (vid w) id)) l = l).
    { clear. induction l as [|x l IH]; intros H; [reflexivity|]. cbn.
      destruct (N.eqb_spec (vid x) id) as [E|E]; [exfalso; apply (H x); auto; now left|].
      cbn. f_equal. apply IH. intros; apply H; now right. }
    rewrite !Hf; auto; intros w Hw; apply Hne, in_or_app; auto. }
  pose proof (p_sorted g W) as Hs. unfold addrs in Hs. rewrite E, map_app in Hs.
  apply sorted_app_inv in Hs as (S1 & S2 & S3). cbn [map] in S2, S3.
  inversion S2 as [|? ? S4 S5]; subst.
  split. { rewrite Forall_forall. intros w Hw. apply S3; [now apply in_map | now left]. }
  split; [|assumption]. rewrite Forall_forall in *. intros w Hw. apply S5. now apply in_map.
Qed.

Lemma del_vertex_ok : forall g id, wfp g -> In id (ids g) ->
  (forall v e, In v (gvs g) -> vid v <> id -> In e (vedges v) -> enb e <> id) ->
  exists g', del_vertex g id = Ok g' /\ wfp g' /\
    (forall k, In k (ids g') <-> In k (ids g) /\ k <> id) /\
    (forall k, k <> id -> addr_of g' k = addr_of g k) /\
    clean g' = filter (fun p => negb (N.eqb (fst p) (addr_of g id))) (clean g).
Proof.
  intros g id W Hid Hpt.
  destruct (deref_in g W id Hid) as (v & Hd).
  destruct (in_split_ids g id v W Hd) as (l1 & l2 & E & Hv & Ef & F1 & F2 & Hne).
  unfold del_vertex. rewrite Hd. cbn [lift rbind]. eexists. split; [reflexivity|].
  rewrite Ef. set (g' := Graph _ _ _).
  assert (Hvs : gvs g' = l1 ++ map (bump_index (vaddr v) (-1)) l2).
  { unfold g'. cbn [gvs]. rewrite map_app. f_equal. apply map_bump_id.
    eapply Forall_impl; [|exact F1]. cbn; intros; lia. }
  assert (Hp : ptrs (gvs g') = ptrs l1 ++ ptrs l2).
  { rewrite Hvs, ptrs_app. f_equal. apply bump_ptrs. }
  assert (Hp0 : ptrs (gvs g) = ptrs l1 ++ (id, vaddr v) :: ptrs l2).
  { rewrite E, ptrs_app. cbn. now rewrite Hv. }
  assert (Hidsp : forall h, ids h = map fst (ptrs (gvs h))).
  { intros. unfold ids, ptrs. rewrite map_map. reflexivity. }
  assert (Hadp : forall h, addrs h = map snd (ptrs (gvs h))).
  { intros. unfold addrs, ptrs. rewrite map_map. reflexivity. }
  assert (Hold : forall k, k <> id -> addr_of g' k = addr_of g k).
  { intros k Hk. rewrite !addr_of_assoc, Hp, Hp0, !assoc_app.
    destruct (assoc (ptrs l1) k); auto. cbn.
    destruct (N.eqb_spec id k); [congruence | reflexivity]. }
  assert (Hii : forall k, In k (ids g') <-> In k (ids g) /\ k <> id).
  { intros k.
    assert (Hl : In k (ids g') <-> In k (map vid (l1 ++ l2))).
    { rewrite Hidsp, Hp, <- ptrs_app. unfold ptrs. rewrite map_map. reflexivity. }
    rewrite Hl. split.
    - intros H. apply in_map_iff in H as (w & <- & Hw). split; [|now apply Hne].
      apply in_map. rewrite E. apply in_app_iff in Hw. apply in_or_app. cbn. tauto.
    - intros [H Hk]. apply in_map_iff in H as (w & <- & Hw). apply in_map.
      rewrite E in Hw. apply in_app_iff in Hw. cbn in Hw. apply in_or_app.
      destruct Hw as [Hw|[<-|Hw]]; auto. congruence. }
  assert (Hin : forall w, In w (l1 ++ l2) -> In w (gvs g)).
  { intros w Hw. rewrite E. apply in_app_iff in Hw. apply in_or_app. cbn. tauto. }
  assert (Hae : addr_of g id = vaddr v) by (unfold addr_of; now rewrite Hd).
  split.
  { constructor.
    - rewrite Hadp, Hp, map_app.
      pose proof (p_sorted g W) as S1. rewrite Hadp, Hp0, map_app in S1.
      apply sorted_app_inv in S1 as (S1 & S2 & S3). cbn [map] in S2, S3.
      inversion S2; subst. apply sorted_app; auto. intros; apply S3; auto. now right.
    - rewrite Hidsp, Hp, map_app.
      pose proof (p_ids g W) as N1. rewrite Hidsp, Hp0, map_app in N1. cbn [map fst] in N1.
      now apply NoDup_remove_1 in N1.
    - intros w Hw. rewrite Hvs in Hw. change (gnext g') with (gnext g).
      apply in_app_or in Hw as [Hw|Hw].
      + apply (p_fresh g W), Hin, in_or_app; auto.
      + apply in_map_iff in Hw as (u & <- & Hu). rewrite bump_vid.
        apply (p_fresh g W), Hin, in_or_app; auto.
    - intros i w Hi. rewrite Hvs in Hi.
      destruct (lt_dec i (length l1)) as [Hl|Hl].
      + rewrite nth_error_app1 in Hi by assumption. apply (p_index g W). rewrite E.
        now rewrite nth_error_app1.
      + rewrite nth_error_app2 in Hi by lia. rewrite nth_error_map in Hi.
        destruct (nth_error l2 (i - length l1)) as [u|] eqn:Eu; [|discriminate].
        cbn in Hi. injection Hi as <-.
        assert (Hu : vindex u = Z.of_nat (i + 1)).
        { apply (p_index g W). rewrite E, nth_error_app2 by lia.
          replace (i + 1 - length l1) with (S (i - length l1)) by lia. exact Eu. }
        assert (vaddr v < vaddr u)%N.
        { rewrite Forall_forall in F2. apply F2. now apply nth_error_In in Eu. }
        unfold bump_index. destruct (N.ltb_spec (vaddr v) (vaddr u)); [|lia]. cbn. lia.
    - unfold g' at 1. cbn [gnr]. rewrite (p_nr g W), Hvs, E, !app_length. cbn [length]. rewrite map_length. lia.
    - intros w e Hw He. apply Hii. rewrite Hvs in Hw.
      assert (Hu : exists u, In u (l1 ++ l2) /\ vedges u = vedges w).
      { apply in_app_or in Hw as [Hw|Hw].
        - exists w. split; auto. apply in_or_app; auto.
        - apply in_map_iff in Hw as (u & <- & Hu). exists u. rewrite bump_vedges. split; auto.
          apply in_or_app; auto. }
      destruct Hu as (u & Hu & Eu). rewrite <- Eu in He. split.
      + apply (p_nb g W u); auto.
      + apply (Hpt u); auto. }
  split; [assumption|]. split; [assumption|].
  rewrite Hae. unfold clean. rewrite Hvs, E, !map_app. cbn [map].
  rewrite filter_app. cbn [filter fst]. rewrite N.eqb_refl. cbn [negb].
  assert (Hf : forall l, (forall w, In w l -> vaddr w <> vaddr v /\ In w (l1 ++ l2)) ->
    map (fun w => (vaddr w, clean_edges g' (vedges w))) l =
    filter (fun p => negb (N.eqb (fst p) (vaddr v))) (map (fun w => (vaddr w, clean_edges g (vedges w))) l)).
  { induction l as [|x l IH]; intros H; [reflexivity|]. cbn [map filter fst].
    destruct (H x) as (Hx & Hxi); [now left|].
    destruct (N.eqb_spec (vaddr x) (vaddr v)); [contradiction|]. cbn [negb]. f_equal.
    - f_equal. unfold clean_edges. apply map_ext_in. intros e He. rewrite Hold; auto.
      apply (Hpt x); auto.
    - apply IH. intros; apply H; now right. }
  f_equal.
  - apply Hf. intros w Hw. rewrite Forall_forall in F1. split; [specialize (F1 _ Hw); lia|].
    apply in_or_app; auto.
  - rewrite map_map.
    rewrite <- Hf.
    + apply map_ext. intros w. now rewrite bump_vaddr, bump_vedges.
    + intros w Hw. rewrite Forall_forall in F2. split; [specialize (F2 _ Hw); lia|].
      apply in_or_app; auto.
Qed.

(* The vertex is removed when it has no edges and no edge points to it. *)
Definition not_pointed (cg : cgraph) (a : N) : Prop :=
  forall x es, In (x, es) cg -> x <> a -> assoc es a = None.

Lemma assoc_none_in : forall (B : Type) (l : list (N * B)) k,
  assoc l k = None <-> forall y, ~ In (k, y) l.
Proof.
  induction l as [|[x y] l IH]; intros k; cbn.
  - split; auto.
  - destruct (N.eqb_spec x k) as [->|E].
    + split; [discriminate|]. intros H. exfalso. apply (H y). now left.
    + rewrite IH. split.
      * intros H z [H1|H1]; [congruence | now apply (H z)].
      * intros H z H1. apply (H z). now right.
Qed.

Lemma reap_ok : forall g id, wfp g -> In id (ids g) ->
  (assoc (clean g) (addr_of g id) = Some [] -> not_pointed (clean g) (addr_of g id)) ->
  exists g', reap g id = Ok g' /\ wfp g' /\
    (forall k, In k (ids g) -> k <> id -> In k (ids g')) /\
    (forall k, k <> id -> addr_of g' k = addr_of g k) /\
    clean g' = c_reap (addr_of g id) (clean g).
Proof.
  intros g id W Hid Hnp. unfold reap.
  destruct (deref_in g W id Hid) as (v & Hd). rewrite Hd. cbn [lift rbind].
  pose proof (proj1 (deref_iff g W id v) Hd) as (Hvi & Hvid).
  assert (Hae : addr_of g id = vaddr v) by (unfold addr_of; now rewrite Hd).
  assert (Ha : assoc (clean g) (addr_of g id) = Some (clean_edges g (vedges v))).
  { rewrite clean_assoc by assumption.
    assert (Hfv : find_vertex g (addr_of g id) = Some v).
    { apply find_vertex_iff; auto. }
    rewrite Hfv. reflexivity. }
  unfold c_reap. rewrite Ha in *. destruct (vedges v) as [|e es] eqn:Ee.
  - cbn [clean_edges map] in *. specialize (Hnp eq_refl).
    destruct (del_vertex_ok g id W Hid) as (g' & D & W' & I' & A' & C').
    { intros w e Hw Hne He Heq.
      assert (Hin : In (vaddr w, clean_edges g (vedges w)) (clean g)).
      { unfold clean. now apply in_map with (f := fun v => (vaddr v, clean_edges g (vedges v))). }
      assert (Hq : vaddr w <> addr_of g id).
      { intros Heq2. apply Hne. rewrite <- Hvid. f_equal. apply (same_addr g W); auto. congruence. }
      specialize (Hnp _ _ Hin Hq). rewrite assoc_none_in in Hnp.
      apply (Hnp (eann e)). unfold clean_edges.
      rewrite <- Heq. now apply in_map with (f := fun e => (addr_of g (enb e), eann e)). }
    exists g'. split; [assumption|]. split; [assumption|]. split.
    { intros k Hk Hk2. apply I'. auto. }
    split; assumption.
  - cbn [clean_edges map]. exists g. split; [reflexivity|]. auto.
Qed.
