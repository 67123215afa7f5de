(** Proofs about the B-tree: lookups. *)
From Coq Require Import List Arith NArith Bool Lia.
From Coq Require Import ZifyBool ZifyNat ZifyN.
From Verif Require Import BTreeModel BTreeSpec BTreeProofs BTreeProofs2 BTreeProofs3.
Import ListNotations.
Open Scope nat_scope.

(** ** Every entry of every array satisfies P *)
Section P.
Variable P : kv -> Prop.
Inductive allP : node -> Prop :=
| allP_mk : forall u l ks cs, Forall P ks -> Forall allP cs -> allP (mk u l ks cs).

Lemma allP_kvs n : allP n -> Forall P (kvs n).
Proof. intro H. inversion H. assumption. Qed.
Lemma allP_chs n : allP n -> Forall allP (chs n).
Proof. intro H. inversion H. assumption. Qed.

Lemma Forall_firstn {A} (Q : A -> Prop) n l : Forall Q l -> Forall Q (firstn n l).
Proof. intro H. rewrite <- (firstn_skipn n l) in H. apply Forall_app in H. tauto. Qed.
Lemma Forall_skipn {A} (Q : A -> Prop) n l : Forall Q l -> Forall Q (skipn n l).
Proof. intro H. rewrite <- (firstn_skipn n l) in H. apply Forall_app in H. tauto. Qed.
Lemma Forall_nth {A} (Q : A -> Prop) l n x : Forall Q l -> nth_error l n = Some x -> Q x.
Proof. intros H E. apply nth_error_In in E. rewrite Forall_forall in H. auto. Qed.

Lemma aset_all (l : list kv) i x l' : Forall P l -> P x -> aset l i x = Some l' -> Forall P l'.
Proof.
  unfold aset, guard. intros Hl Hx. destruct (i <? length l); [|discriminate]. intro E.
  assert (l' = firstn i l ++ x :: skipn (S i) l) as -> by congruence.
  apply Forall_app. split; [apply Forall_firstn; exact Hl|constructor; [exact Hx|apply Forall_skipn; exact Hl]].
Qed.
Lemma acopy_all (d : list kv) i s j n l' : Forall P d -> Forall P s -> acopy d i s j n = Some l' -> Forall P l'.
Proof.
  unfold acopy, guard. intros Hd Hs. destruct (_ && _); [|discriminate]. intro E.
  assert (l' = firstn i d ++ firstn n (skipn j s) ++ skipn (i + n) d) as -> by congruence.
  apply Forall_app. split; [apply Forall_firstn; exact Hd|]. apply Forall_app.
  split; [apply Forall_firstn, Forall_skipn; exact Hs|apply Forall_skipn; exact Hd].
Qed.
Lemma amove_all (l : list kv) i j n l' : Forall P l -> amove l i j n = Some l' -> Forall P l'.
Proof. intros H E. exact (acopy_all _ _ _ _ _ _ H H E). Qed.

Hypothesis P0 : P (0, 0)%N.
Lemma create_all k : allP (btnode_create k).
Proof.
  constructor; [|constructor]. apply Forall_forall. intros x Hx. apply repeat_spec in Hx. subst. exact P0.
Qed.

Ltac binv :=
  match goal with
  | H : bind ?o _ = Some _ |- _ => let E := fresh "E" in destruct o eqn:E; [cbn [bind] in H|discriminate H]
  | H : guard ?b _ = Some _ |- _ => let E := fresh "G" in unfold guard in H; destruct b eqn:E; [|discriminate H]
  | H : (if ?b then _ else None) = Some _ |- _ => let E := fresh "G" in destruct b eqn:E; [|discriminate H]
  end.
Lemma some_eq {A} (x y : A) : Some x = Some y -> x = y.
Proof. congruence. Qed.

Definition allIr (r : ires) : Prop :=
  match r with IDone (Some (m, g)) => P m /\ allP g | _ => True end.

Lemma split_node_all k n n' r : allP n -> split_node k n = Some (n', r) -> allP n' /\ allIr r.
Proof.
  intros Hn E. unfold split_node in E. destruct (used n =? k).
  - repeat binv. apply some_eq in E.
    match goal with H : acopy _ _ _ _ _ = Some ?l |- _ => assert (Hl : Forall P l)
      by (exact (acopy_all _ _ _ _ _ _ (allP_kvs _ (create_all k)) (allP_kvs _ Hn) H)) end.
    assert (En : n' = _) by exact (eq_sym (f_equal fst E)).
    assert (Er : r = _) by exact (eq_sym (f_equal snd E)). subst n' r. cbn [fst snd].
    split.
    + constructor; [apply allP_kvs; exact Hn|apply Forall_firstn, allP_chs; exact Hn].
    + cbn [allIr]. split.
      * eapply Forall_nth; [exact (allP_kvs _ Hn)|eassumption].
      * constructor; [exact Hl|]. apply Forall_firstn. apply (Forall_skipn allP (used n / 2 + 1)).
        apply allP_chs; exact Hn.
  - apply some_eq in E. injection E as <- <-. split; [exact Hn|exact I].
Qed.
Lemma set_child_all l p c : Forall allP l -> allP c -> Forall allP (set_child l p c).
Proof.
  intros Hl Hc. apply Forall_app. split; [apply Forall_firstn; exact Hl|].
  constructor; [exact Hc|]. exact (Forall_skipn allP (S p) l Hl).
Qed.
Lemma insert_all k x : P x -> forall f n n' r,
  allP n -> btnode_insert f k n x = Some (n', r) -> allP n' /\ allIr r.
Proof.
  intro Px. induction f as [|f IH]; intros n n' r Hn E; [discriminate|]. cbn [btnode_insert] in E.
  repeat binv. destruct b.
  { apply some_eq in E. injection E as <- <-. split; [exact Hn|exact I]. }
  repeat binv. destruct (leaf n).
  - repeat binv. apply (split_node_all k _ _ _) in E; [exact E|].
    constructor; [|apply allP_chs; exact Hn].
    eapply aset_all; [|exact Px|eassumption]. eapply amove_all; [|eassumption]. apply allP_kvs; exact Hn.
  - repeat binv.
    match goal with H : nth_error (chs n) _ = Some ?c |- _ =>
      assert (Hc : allP c) by (eapply Forall_nth; [exact (allP_chs _ Hn)|exact H]) end.
    destruct p as [c' ir]. 
    match goal with H : btnode_insert f k _ x = Some _ |- _ => destruct (IH _ _ _ Hc H) as (Hc' & Hr) end.
    destruct ir as [|[[m g]|]].
    + apply some_eq in E. injection E as <- <-. split; [|exact I].
      constructor; [apply allP_kvs; exact Hn|apply set_child_all; [apply allP_chs; exact Hn|exact Hc']].
    + cbn [kvs chs] in E. repeat binv. destruct Hr as (Hm & Hg).
      apply (split_node_all k _ _ _) in E; [exact E|]. constructor.
      * eapply aset_all; [|exact Hm|eassumption]. eapply amove_all; [|eassumption]. apply allP_kvs; exact Hn.
      * cbn [chs]. apply Forall_app. split.
        -- apply Forall_firstn, set_child_all; [apply allP_chs; exact Hn|exact Hc'].
        -- constructor; [exact Hg|]. apply Forall_skipn, set_child_all; [apply allP_chs; exact Hn|exact Hc'].
    + apply (split_node_all k _ _ _) in E; [exact E|].
      constructor; [apply allP_kvs; exact Hn|apply set_child_all; [apply allP_chs; exact Hn|exact Hc']].
Qed.

Lemma split_node_ok k n n' : split_node k n <> Some (n', IFail).
Proof.
  unfold split_node. destruct (used n =? k); [|congruence]. intro E. repeat binv. congruence.
Qed.
Lemma insert_fail_all k x : forall f n n',
  allP n -> btnode_insert f k n x = Some (n', IFail) -> allP n'.
Proof.
  induction f as [|f IH]; intros n n' Hn E; [discriminate|]. cbn [btnode_insert] in E.
  repeat binv. destruct b.
  { apply some_eq in E. assert (n' = n) as -> by congruence. exact Hn. }
  repeat binv. destruct (leaf n).
  - repeat binv. exfalso. exact (split_node_ok _ _ _ E).
  - repeat binv.
    match goal with H : nth_error (chs n) _ = Some ?c |- _ =>
      assert (Hc : allP c) by (eapply Forall_nth; [exact (allP_chs _ Hn)|exact H]) end.
    destruct p as [c' ir]. destruct ir as [|[[m g]|]].
    + match goal with H : btnode_insert f k _ x = Some _ |- _ => pose proof (IH _ _ Hc H) as Hc' end.
      apply some_eq in E. injection E as <-.
      constructor; [apply allP_kvs; exact Hn|apply set_child_all; [apply allP_chs; exact Hn|exact Hc']].
    + repeat binv. exfalso. exact (split_node_ok _ _ _ E).
    + exfalso. exact (split_node_ok _ _ _ E).
Qed.

Ltac getall :=
  repeat match goal with
  | Hn : allP ?n, H : nth_error (kvs ?n) ?i = Some ?e |- _ =>
      lazymatch goal with Q : P e |- _ => fail | _ => assert (P e) by (exact (Forall_nth P _ _ _ (allP_kvs _ Hn) H)) end
  | Hn : allP ?n, H : nth_error (chs ?n) ?i = Some ?e |- _ =>
      lazymatch goal with Q : allP e |- _ => fail | _ => assert (allP e) by (exact (Forall_nth allP _ _ _ (allP_chs _ Hn) H)) end
  | H : aset ?l ?i ?x = Some ?l', Hl : Forall P ?l, Hx : P ?x |- _ =>
      lazymatch goal with Q : Forall P l' |- _ => fail | _ => assert (Forall P l') by (exact (aset_all _ _ _ _ Hl Hx H)) end
  | H : acopy ?d ?i ?s ?j ?n = Some ?l', Hd : Forall P ?d, Hs : Forall P ?s |- _ =>
      lazymatch goal with Q : Forall P l' |- _ => fail | _ => assert (Forall P l') by (exact (acopy_all _ _ _ _ _ _ Hd Hs H)) end
  | H : amove ?d ?i ?j ?n = Some ?l', Hd : Forall P ?d |- _ =>
      lazymatch goal with Q : Forall P l' |- _ => fail | _ => assert (Forall P l') by (exact (amove_all _ _ _ _ _ Hd H)) end
  | Hn : allP ?n |- _ =>
      lazymatch goal with Q : Forall P (kvs n) |- _ => fail | _ => assert (Forall P (kvs n)) by (exact (allP_kvs _ Hn)) end
  | Hn : allP ?n |- _ =>
      lazymatch goal with Q : Forall allP (chs n) |- _ => fail | _ => assert (Forall allP (chs n)) by (exact (allP_chs _ Hn)) end
  end.
Ltac kidsall :=
  repeat first [ assumption | apply Forall_nil | apply Forall_cons | apply Forall_app; split
               | apply Forall_firstn | apply Forall_skipn | apply allP_mk | apply set_child_all ].

Lemma merge_all k n i n' : allP n -> merge k n i = Some n' -> allP n'.
Proof.
  intros Hn E. unfold merge in E. do 3 binv. binv. getall. do 2 binv. getall.
  binv.
  assert (Hcc : Forall allP l1).
  { match goal with H : (if leaf ?c then _ else _) = Some l1 |- _ => destruct (leaf c) end.
    - match goal with H : Some _ = Some l1 |- _ => apply some_eq in H; subst l1 end. assumption.
    - repeat binv. match goal with H : Some _ = Some l1 |- _ => apply some_eq in H; subst l1 end.
      kidsall. }
  repeat binv. getall. apply some_eq in E. subst n'. kidsall.
Qed.
Lemma fill_all k n i n' : allP n -> fill k n i = Some n' -> allP n'.
Proof.
  intros Hn E. unfold fill in E. binv. binv. getall.
  assert (Hp : forall p, o = Some p -> allP p).
  { intros p ->. destruct (i =? 0); [discriminate|]. repeat binv. getall.
    match goal with H : Some _ = Some (Some p) |- _ => apply some_eq in H end.
    destruct (k / 2 <=? used n1); [|discriminate]. congruence. }
  destruct o as [p|].
  - specialize (Hp p eq_refl). unfold feed_prev in E. binv. getall. binv. getall. binv. getall. binv.
    assert (Hcc : Forall allP l1).
    { destruct (leaf n0).
      - match goal with H : Some _ = Some l1 |- _ => apply some_eq in H; subst l1 end. assumption.
      - repeat binv. getall. match goal with H : Some _ = Some l1 |- _ => apply some_eq in H; subst l1 end.
        constructor; assumption. }
    repeat binv. getall. apply some_eq in E. subst n'. kidsall.
    + destruct (leaf n0); kidsall.
  - binv. assert (Hx : forall x, o = Some x -> allP x).
    { intros x ->. destruct (i =? used n); [discriminate|]. repeat binv. getall.
      match goal with H : Some _ = Some (Some x) |- _ => apply some_eq in H end.
      destruct (k / 2 <=? used n1); [|discriminate]. congruence. }
    destruct o as [x|].
    + specialize (Hx x eq_refl). unfold feed_next in E. binv. getall. binv. getall. binv.
      assert (Hcc : Forall allP l0).
      { destruct (leaf n0).
        - match goal with H : Some _ = Some l0 |- _ => apply some_eq in H; subst l0 end. assumption.
        - repeat binv. getall. match goal with H : Some _ = Some l0 |- _ => apply some_eq in H; subst l0 end.
          apply Forall_app. split; [apply Forall_firstn; assumption|]. constructor; [assumption|constructor]. }
      repeat binv. getall. apply some_eq in E. subst n'. kidsall.
      * destruct (leaf x); [kidsall|]. exact (Forall_skipn allP 1 (chs x) (allP_chs _ Hx)).
    + destruct (negb (i =? used n)); [exact (merge_all _ _ _ _ Hn E)|].
      destruct (i =? 0); [discriminate|exact (merge_all _ _ _ _ Hn E)].
Qed.
Lemma rightmost_all f : forall n x, allP n -> rightmost f n = Some x -> P x.
Proof.
  induction f as [|f IH]; intros n x Hn E; [discriminate|]. cbn [rightmost] in E. destruct (leaf n).
  - binv. getall. assumption.
  - binv. getall. eapply IH; [|exact E]. assumption.
Qed.
Lemma leftmost_all f : forall n x, allP n -> leftmost f n = Some x -> P x.
Proof.
  induction f as [|f IH]; intros n x Hn E; [discriminate|]. cbn [leftmost] in E. destruct (leaf n).
  - getall. assumption.
  - binv. getall. eapply IH; [|exact E]. assumption.
Qed.
Lemma delete_all k f : forall n key n' ok, allP n -> btnode_delete f k n key = Some (n', ok) -> allP n'.
Proof.
  induction f as [|f IH]; intros n key n' ok Hn E; [discriminate|]. cbn [btnode_delete] in E.
  binv. binv. destruct b.
  - destruct (leaf n).
    + repeat binv. getall. apply some_eq in E. injection E as <- _. constructor; assumption.
    + binv. getall. destruct (k / 2 <=? used n1).
      * binv. binv. binv. destruct p0 as [c' okc]. cbn [fst snd] in E. apply some_eq in E. injection E as <- _.
        match goal with H : rightmost _ _ = Some _ |- _ => apply rightmost_all in H; [|assumption] end.
        getall. match goal with H : btnode_delete _ _ _ _ = Some _ |- _ => apply IH in H; [|assumption] end.
        constructor; [assumption|]. apply set_child_all; assumption.
      * binv. getall. destruct (k / 2 <=? used n2).
        -- binv. binv. binv. destruct p0 as [c' okc]. cbn [fst snd] in E. apply some_eq in E. injection E as <- _.
           match goal with H : leftmost _ _ = Some _ |- _ => apply leftmost_all in H; [|assumption] end.
           getall. match goal with H : btnode_delete _ _ _ _ = Some _ |- _ => apply IH in H; [|assumption] end.
           constructor; [assumption|]. apply set_child_all; assumption.
        -- binv. match goal with H : merge _ _ _ = Some _ |- _ => apply merge_all in H; [|assumption] end.
           apply IH in E; assumption.
  - destruct (leaf n).
    + apply some_eq in E. injection E as <- _. exact Hn.
    + binv. binv.
      assert (H1 : allP n2).
      { destruct (used n1 <? k / 2).
        - eapply fill_all; [exact Hn|eassumption].
        - match goal with H : Some n = Some n2 |- _ => apply some_eq in H; subst n2 end. exact Hn. }
      binv. getall. binv. destruct p as [c' okc]. cbn [fst snd] in E.
      match goal with H : btnode_delete _ _ _ _ = Some _ |- _ => apply IH in H; [|assumption] end.
      apply some_eq in E. injection E as <- _. constructor; [assumption|]. apply set_child_all; assumption.
Qed.

Definition tree_all (t : tree) : Prop := match root t with None => True | Some n => allP n end.
Lemma tree_insert_all t key val t' b : tree_all t -> P (key, val) -> btree_insert t key val = Some (t', b) -> tree_all t'.
Proof.
  intros Ht Px E. unfold btree_insert in E. destruct (N.eqb val 0).
  { apply some_eq in E. injection E as <- _. exact Ht. }
  set (rt := match root t with Some n => n | None => btnode_create (order t) end) in *.
  assert (Hr : allP rt).
  { unfold rt, tree_all in *. destruct (root t); [exact Ht|apply create_all]. }
  binv. destruct p as [n' ir].
  match goal with H : btnode_insert _ _ _ _ = Some _ |- _ => destruct (insert_all _ _ Px _ _ _ _ Hr H) as (Hn & Hi) end.
  destruct ir as [|[[m g]|]].
  - apply some_eq in E. injection E as <- _. exact Hn.
  - binv. binv. cbn in Hi. destruct Hi as (Hm & Hg). pose proof (create_all (order t)) as Hcr. getall.
    apply some_eq in E. injection E as <- _. cbn. kidsall.
  - apply some_eq in E. injection E as <- _. exact Hn.
Qed.
Lemma tree_insert_fail_all t key val t' : tree_all t -> btree_insert t key val = Some (t', false) -> tree_all t'.
Proof.
  intros Ht E. unfold btree_insert in E. destruct (N.eqb val 0).
  { apply some_eq in E. injection E as <-. exact Ht. }
  set (rt := match root t with Some n => n | None => btnode_create (order t) end) in *.
  assert (Hr : allP rt).
  { unfold rt, tree_all in *. destruct (root t); [exact Ht|apply create_all]. }
  binv. destruct p as [n' ir]. destruct ir as [|[[m g]|]].
  - match goal with H : btnode_insert _ _ _ _ = Some _ |- _ => pose proof (insert_fail_all _ _ _ _ _ Hr H) as Hn end.
    apply some_eq in E. injection E as <-. exact Hn.
  - repeat binv. discriminate E.
  - discriminate E.
Qed.
Lemma tree_remove_all t key t' b : tree_all t -> btree_remove t key = Some (t', b) -> tree_all t'.
Proof.
  intros Ht E. unfold btree_remove in E. unfold tree_all in Ht. destruct (root t) as [n|] eqn:Er.
  2:{ apply some_eq in E. injection E as <- _. unfold tree_all. rewrite Er. exact I. }
  binv. destruct p as [n' ok].
  match goal with H : btnode_delete _ _ _ _ = Some _ |- _ => apply delete_all in H; [|exact Ht]; rename H into Hn end.
  destruct (negb ok); [apply some_eq in E; injection E as <- _; exact Hn|].
  destruct (used n' =? 0); [|apply some_eq in E; injection E as <- _; exact Hn].
  destruct (leaf n'); [apply some_eq in E; injection E as <- _; exact I|].
  binv. apply some_eq in E. injection E as <- _. cbn. getall. assumption.
Qed.
Lemma search_all f : forall n key v, allP n -> btnode_search f n key = Some v -> v = 0%N \/ P (key, v).
Proof.
  induction f as [|f IH]; intros n key v Hn E; [discriminate|]. cbn [btnode_search] in E.
  binv. binv. getall. destruct p as [a b]. cbn [fst snd] in E.
  destruct (N.eqb_spec a key) as [->|Q].
  - right. assert (v = b) by congruence. subst. assumption.
  - destruct (leaf n); [left; congruence|]. binv. getall. eapply IH; [|exact E]. assumption.
Qed.
End P.

(** ** Histories *)
Definition inserted (key val : N) (ops : list uop) : Prop := In (UInsert key val) ops.

Lemma tree_all_impl (P Q : kv -> Prop) t : (forall e, P e -> Q e) -> tree_all P t -> tree_all Q t.
Proof.
  intro H. unfold tree_all. destruct (root t); [|auto].
  assert (G : forall m n, depth n <= m -> allP P n -> allP Q n).
  { induction m as [|m IH]; intros [u l ks cs] D A; [cbn in D; lia|]. inversion A; subst.
    constructor; [eapply Forall_impl; [|eassumption]; auto|].
    rewrite Forall_forall in *. intros c Hc. apply IH; [|auto].
    cbn [depth chs] in D. clear - D Hc. induction cs as [|x cs IHc]; [contradiction|].
    destruct Hc as [->|Hc]; [lia|apply IHc; [lia|exact Hc]]. }
  apply G with (m := depth n). lia.
Qed.

Lemma tree_run_all ops : forall (P : kv -> Prop) t t' bs,
  P (0, 0)%N -> (forall key val, In (UInsert key val) ops -> val <> 0%N -> P (key, val)) ->
  tree_all P t -> tree_run t ops = Some (t', bs) -> tree_all P t'.
Proof.
  induction ops as [|o ops IH]; intros P t t' bs P0 HP Ht E; cbn [tree_run] in E.
  - assert (t' = t) as -> by congruence. exact Ht.
  - destruct (tree_step t o) as [[t1 b1]|] eqn:E1; [|discriminate].
    destruct (tree_run t1 ops) as [[t2 bs2]|] eqn:E2; [|discriminate].
    assert (t' = t2) as -> by congruence.
    apply (IH P t1 t2 bs2 P0); [intros; apply HP; [right|]; assumption| |exact E2].
    destruct o as [key val|key]; cbn [tree_step] in E1.
    + destruct (N.eq_dec val 0) as [->|Z].
      * cbn in E1. assert (t1 = t) as -> by congruence. exact Ht.
      * exact (tree_insert_all P P0 _ _ _ _ _ Ht (HP _ _ (or_introl eq_refl) Z) E1).
    + exact (tree_remove_all P _ _ _ _ Ht E1).
Qed.

(** ** Present keys *)
Section K.
Variable k : nat.
Hypothesis Hk : 4 <= k.

Lemma search_present P h : forall fuel n key v,
  h < fuel -> wf k h n -> increasing (elems n) -> allP P n -> In (key, v) (elems n) ->
  exists w, btnode_search fuel n key = Some w /\ P (key, w).
Proof.
  induction h as [|h IH]; intros [|f] n key v Hf W Inc HP Hin; try lia.
  - destruct (wf_inv0 _ _ W) as (ks & js & -> & L & L').
    rewrite elems_nd in *. cbn [map] in *. rewrite flat_nochild in *.
    destruct (search_hit key ks js Inc) as (a & b & -> & Sk & Ha & Hb).
    cbn [btnode_search]. cbn [nd used kvs leaf chs]. rewrite Sk. cbn [bind].
    destruct Hb as [(v' & b' & -> & Hb)|Hb].
    + rewrite <- app_assoc. cbn [app]. rewrite nth_error_mid by reflexivity. cbn [bind fst snd].
      rewrite N.eqb_refl. exists v'. split; [reflexivity|].
      pose proof (allP_kvs P _ HP) as Q. cbn [nd kvs] in Q. rewrite <- app_assoc in Q.
      apply Forall_app in Q. destruct Q as (_ & Q). exact (Forall_inv Q).
    + exfalso. apply (not_mem key a b Ha Hb). apply mem_in. eauto.
  - destruct (wf_invS _ _ _ W) as (ks & js & cs & -> & L & L' & C & F).
    assert (Ik : increasing ks).
    { rewrite elems_nd in Inc. apply (increasing_keys ks (map elems cs)); [|exact Inc].
      right. rewrite map_length. exact C. }
    destruct (search_hit key ks js Ik) as (a & b & -> & Sk & Ha & Hb).
    cbn [btnode_search]. cbn [nd used kvs leaf chs]. rewrite Sk. cbn [bind].
    pose proof (allP_kvs P _ HP) as HPk. cbn [nd kvs] in HPk.
    assert (Hn : exists e, nth_error ((a ++ b) ++ js) (length a) = Some e /\ P e).
    { destruct (nth_error ((a ++ b) ++ js) (length a)) as [e|] eqn:Ee.
      - exists e. split; [reflexivity|]. exact (Forall_nth P _ _ _ HPk Ee).
      - exfalso. apply nth_error_None in Ee. rewrite !app_length in *. lia. }
    destruct Hn as ((x & w) & En & Pe). rewrite En. cbn [bind fst snd].
    destruct (N.eqb_spec x key) as [->|Q]; [exists w; split; [reflexivity|exact Pe]|].
    destruct Hb as [(v' & b' & -> & Hb)|Hb].
    { exfalso. rewrite <- app_assoc in En. cbn [app] in En. rewrite nth_error_mid in En by reflexivity. congruence. }
    destruct (descend key h k a b js cs W Inc Ha Hb)
        as (ca & c & cb & -> & Lca & Lcb & Wc & Uc & Ic & Ee & Hl & Hr).
    rewrite nth_error_mid by lia. cbn [bind].
    pose proof (allP_chs P _ HP) as HPc. cbn [nd chs] in HPc. apply Forall_app in HPc. destruct HPc as (_ & HPc).
    apply (IH f c key v); [lia|exact Wc|exact Ic|exact (Forall_inv HPc)|].
    rewrite Ee in Hin. apply in_app_or in Hin. destruct Hin as [Hin|Hin].
    { exfalso. unfold ltk in Hl. rewrite Forall_forall in Hl. specialize (Hl _ Hin). cbn in Hl. lia. }
    apply in_app_or in Hin. destruct Hin as [Hin|Hin]; [exact Hin|].
    exfalso. unfold gtk in Hr. rewrite Forall_forall in Hr. specialize (Hr _ Hin). cbn in Hr. lia.
Qed.
(** Lookups never fail, and an absent key gives NULL or an old value. *)
Lemma search_total h : forall fuel n key,
  h < fuel -> wf k h n -> increasing (elems n) -> exists w, btnode_search fuel n key = Some w.
Proof.
  induction h as [|h IH]; intros [|f] n key Hf W Inc; try lia.
  - destruct (wf_inv0 _ _ W) as (ks & js & -> & L & L').
    rewrite elems_nd in *. cbn [map] in *. rewrite flat_nochild in *.
    destruct (search_hit key ks js Inc) as (a & b & -> & Sk & Ha & Hb).
    cbn [btnode_search]. cbn [nd used kvs leaf chs]. rewrite Sk. cbn [bind].
    destruct (nth_error ((a ++ b) ++ js) (length a)) as [e|] eqn:Ee.
    + cbn [bind]. destruct (N.eqb (fst e) key); eauto.
    + exfalso. apply nth_error_None in Ee. rewrite !app_length in *. lia.
  - destruct (wf_invS _ _ _ W) as (ks & js & cs & -> & L & L' & C & F).
    assert (Ik : increasing ks).
    { rewrite elems_nd in Inc. apply (increasing_keys ks (map elems cs)); [|exact Inc].
      right. rewrite map_length. exact C. }
    destruct (search_hit key ks js Ik) as (a & b & -> & Sk & Ha & Hb).
    cbn [btnode_search]. cbn [nd used kvs leaf chs]. rewrite Sk. cbn [bind].
    destruct (nth_error ((a ++ b) ++ js) (length a)) as [e|] eqn:Ee.
    2:{ exfalso. apply nth_error_None in Ee. rewrite !app_length in *. lia. }
    cbn [bind]. destruct (N.eqb_spec (fst e) key) as [Q|Q]; [eauto|].
    destruct Hb as [(v' & b' & -> & Hb)|Hb].
    { exfalso. rewrite <- app_assoc in Ee. cbn [app] in Ee. rewrite nth_error_mid in Ee by reflexivity.
      apply Q. injection Ee as <-. reflexivity. }
    destruct (descend key h k a b js cs W Inc Ha Hb)
        as (ca & c & cb & -> & Lca & Lcb & Wc & Uc & Ic & Ee' & Hl & Hr).
    rewrite nth_error_mid by lia. cbn [bind]. apply IH; [lia|exact Wc|exact Ic].
Qed.
End K.

(** Entries with a key that is never removed are its current one. *)
Definition cur (key : N) (m : smap) (e : kv) : Prop :=
  fst e = key -> e = (0, 0)%N \/ lookup m key = Some (snd e).

Lemma run_cur k ops : 4 <= k -> forall key cnt t m,
  tree_ok k cnt t m -> few_absent (k / 2 - 1) cnt m ops -> ~ In (URemove key) ops ->
  tree_all (cur key m) t ->
  exists t' cnt', tree_run t ops = Some (t', snd (spec_run m ops)) /\
    tree_ok k cnt' t' (fst (spec_run m ops)) /\ tree_all (cur key (fst (spec_run m ops))) t'.
Proof.
  intro Hk. induction ops as [|o ops IH]; intros key cnt t m Ht Hf Hn Ha.
  - exists t, cnt. split; [reflexivity|split; [exact Ht|exact Ha]].
  - cbn [tree_run few_absent spec_run] in *. destruct o as [a b|a].
    + cbn [spec_step tree_step] in *. destruct (insert_step k Hk cnt t m a b Ht) as (t1 & E & Ht1).
      assert (Ha1 : tree_all (cur key (fst (spec_insert m a b))) t1).
      { unfold spec_insert in *. destruct (N.eqb b 0) eqn:Eb; cbn [fst snd] in *.
        { apply (tree_insert_fail_all (cur key m) (fun _ => or_introl eq_refl) _ _ _ _ Ha E). }
        destruct (lookup m a) eqn:El; cbn [fst snd] in *.
        { apply (tree_insert_fail_all (cur key m) (fun _ => or_introl eq_refl) _ _ _ _ Ha E). }
        apply (tree_insert_all (cur key ((a, b) :: m)) (fun _ => or_introl eq_refl) t a b t1 true); [| |exact E].
        - apply (tree_all_impl (cur key m)); [|exact Ha]. intros e He Q. specialize (He Q).
          destruct He as [He|He]; [left; exact He|]. cbn [lookup].
          destruct (N.eqb_spec a key) as [->|]; [congruence|right; exact He].
        - intro Q. cbn [fst snd lookup] in *. subst. rewrite N.eqb_refl. right. reflexivity. }
      rewrite E. destruct (spec_insert m a b) as [m1 b1]. cbn [fst snd] in *.
      destruct (IH key cnt t1 m1 Ht1 Hf ltac:(intro Q; apply Hn; right; exact Q) Ha1)
        as (t2 & cnt2 & E2 & Ht2 & Ha2). rewrite E2.
      destruct (spec_run m1 ops) as [m2 bs]. exists t2, cnt2. split; [reflexivity|split; assumption].
    + cbn [spec_step tree_step] in *.
      destruct (spec_remove m a) as [m1 b1] eqn:Es. destruct Hf as (Hc & Hf).
      destruct (remove_step k Hk cnt t m a Ht Hc) as (t1 & E & Ht1).
      rewrite E. rewrite Es in *. cbn [fst snd] in *.
      assert (Ha1 : tree_all (cur key m1) t1).
      { assert (L : lookup m1 key = lookup m key).
        { unfold spec_remove in Es. destruct m as [|p m0]; [congruence|]. remember (p :: m0) as m'.
          destruct (lookup m' a) eqn:El; [|congruence]. assert (m1 = del m' a) as -> by congruence.
          rewrite lookup_del. destruct (N.eqb_spec a key) as [->|]; [|reflexivity].
          exfalso. apply Hn. left. reflexivity. }
        apply (tree_all_impl (cur key m)).
        - intros e He Q. rewrite L. exact (He Q).
        - exact (tree_remove_all (cur key m) _ _ _ _ Ha E). }
      destruct (IH key _ t1 m1 Ht1 Hf ltac:(intro Q; apply Hn; right; exact Q) Ha1)
        as (t2 & cnt2 & E2 & Ht2 & Ha2). rewrite E2.
      destruct (spec_run m1 ops) as [m2 bs]. exists t2, cnt2. split; [reflexivity|split; assumption].
Qed.
