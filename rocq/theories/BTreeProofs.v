(** Proofs about the B-tree: arrays, search and insertion. *)
From Coq Require Import List Arith NArith Bool Lia.
From Coq Require Import ZifyBool ZifyNat ZifyN.
From Verif Require Import BTreeModel BTreeSpec.
Import ListNotations.
Open Scope nat_scope.

(** ** Lists *)
Lemma firstn_app_l {A} (a b : list A) n : n = length a -> firstn n (a ++ b) = a.
Proof. intros ->. rewrite firstn_app, Nat.sub_diag, firstn_all. cbn. apply app_nil_r. Qed.
Lemma skipn_app_l {A} (a b : list A) n : n = length a -> skipn n (a ++ b) = b.
Proof. intros ->. rewrite skipn_app, Nat.sub_diag, skipn_all. reflexivity. Qed.
Lemma nth_error_mid {A} (a : list A) x b n : n = length a -> nth_error (a ++ x :: b) n = Some x.
Proof. intros ->. rewrite nth_error_app2, Nat.sub_diag by lia. reflexivity. Qed.
Lemma split_at {A} (l : list A) n : n <= length l -> exists a b, l = a ++ b /\ length a = n.
Proof.
  intro H. exists (firstn n l), (skipn n l). rewrite firstn_skipn. split; [reflexivity|].
  apply firstn_length_le; exact H.
Qed.
Lemma split_nth {A} (l : list A) n : n < length l -> exists a x b, l = a ++ x :: b /\ length a = n.
Proof.
  intro H. destruct (split_at l n) as (a & b & E & L); [lia|]. destruct b as [|x b].
  - rewrite E, app_nil_r in H. lia.
  - exists a, x, b. split; assumption.
Qed.
Lemma list_snoc {A} (l : list A) : l <> [] -> exists a x, l = a ++ [x].
Proof. intro H. destruct (exists_last H) as (a & x & E). exists a, x. exact E. Qed.
Lemma app_cons_assoc {A} (a : list A) x b : a ++ x :: b = (a ++ [x]) ++ b.
Proof. rewrite <- app_assoc. reflexivity. Qed.

(** ** Arrays *)
Lemma aset_mid {A} (a : list A) x b y n :
  n = length a -> aset (a ++ x :: b) n y = Some (a ++ y :: b).
Proof.
  intros ->. unfold aset, guard. rewrite app_length. cbn [length].
  replace (length a <? length a + S (length b)) with true by (symmetry; apply Nat.ltb_lt; lia).
  rewrite firstn_app_l by reflexivity. rewrite (app_cons_assoc a x), skipn_app_l; [reflexivity|].
  rewrite app_length. cbn [length]. lia.
Qed.
Lemma acopy_spec {A} (d1 d2 d3 s1 s2 s3 : list A) d s n :
  d = length d1 -> s = length s1 -> n = length d2 -> n = length s2 ->
  acopy (d1 ++ d2 ++ d3) d (s1 ++ s2 ++ s3) s n = Some (d1 ++ s2 ++ d3).
Proof.
  intros -> -> Hn Hs. unfold acopy, guard. rewrite !app_length.
  replace ((_ <=? _) && (_ <=? _)) with true
    by (symmetry; apply andb_true_intro; split; apply Nat.leb_le; lia).
  rewrite firstn_app_l by reflexivity. rewrite (skipn_app_l s1) by reflexivity.
  rewrite (firstn_app_l s2) by assumption. rewrite (app_assoc d1 d2 d3), skipn_app_l; [reflexivity|].
  rewrite app_length. lia.
Qed.
(** Make room at position p and store there. *)
Lemma arr_ins {A} (a b : list A) z js x p n :
  p = length a -> n = length b ->
  exists l, amove ((a ++ b) ++ z :: js) (p + 1) p n = Some l /\
    aset l p x = Some ((a ++ x :: b) ++ js).
Proof.
  intros -> ->. unfold amove.
  assert (E : exists y rest, (a ++ b) ++ z :: js = a ++ y :: rest ++ js /\ length rest = length b).
  { destruct b as [|y b].
    - exists z, []. rewrite app_nil_r. split; reflexivity.
    - exists y, (b ++ [z]). split; [rewrite <- !app_assoc; reflexivity|].
      rewrite app_length. cbn [length]. lia. }
  destruct E as (y & rest & E & L).
  assert (C : acopy ((a ++ b) ++ z :: js) (length a + 1) ((a ++ b) ++ z :: js) (length a) (length b)
          = Some ((a ++ [y]) ++ b ++ js)).
  { rewrite E at 1. rewrite (app_cons_assoc a y).
    rewrite <- (app_assoc a b). apply acopy_spec; try reflexivity; [|symmetry; exact L].
    rewrite app_length. reflexivity. }
  eexists. split; [exact C|]. rewrite <- app_assoc. cbn [app].
  rewrite aset_mid by reflexivity. rewrite <- app_assoc. reflexivity.
Qed.
(** Remove position p. *)
Lemma arr_del {A} (a : list A) x b js p n :
  p = length a -> n = length b ->
  exists js', amove ((a ++ x :: b) ++ js) p (p + 1) n = Some ((a ++ b) ++ js') /\
    length js' = S (length js).
Proof.
  intros -> ->. unfold amove.
  destruct (list_snoc (x :: b)) as (rest & z & E); [discriminate|].
  assert (L : length rest = length b).
  { apply (f_equal (@length A)) in E. rewrite app_length in E. cbn in E. lia. }
  exists (z :: js). split; [|reflexivity].
  rewrite <- app_assoc. rewrite E at 1. rewrite <- (app_assoc rest [z] js).
  replace (a ++ (x :: b) ++ js) with ((a ++ [x]) ++ b ++ js) by (rewrite <- app_assoc; reflexivity).
  rewrite (acopy_spec a rest ([z] ++ js) (a ++ [x]) b js); try (rewrite ?app_length; cbn; lia).
  rewrite <- app_assoc. reflexivity.
Qed.
(** Remove the first, moving one element too many. *)
Lemma arr_pop {A} (x : A) b js n :
  n = S (length b) -> js <> [] ->
  exists js', amove ((x :: b) ++ js) 0 1 n = Some (b ++ js') /\ length js' = S (length js).
Proof.
  intros -> H. unfold amove. destruct js as [|y js]; [contradiction|].
  exists (y :: y :: js). split; [|reflexivity].
  change ((x :: b) ++ y :: js) with ([] ++ (x :: b) ++ y :: js) at 1.
  replace ((x :: b) ++ y :: js) with ([x] ++ (b ++ [y]) ++ js) by (rewrite <- app_assoc; reflexivity).
  replace ([] ++ [x] ++ (b ++ [y]) ++ js) with ([] ++ (x :: b) ++ y :: js)
    by (rewrite <- app_assoc; reflexivity).
  rewrite acopy_spec; try reflexivity; cbn; rewrite ?app_length; cbn; try lia.
  rewrite <- app_assoc. reflexivity.
Qed.
(** Copy to the end of the used part. *)
Lemma arr_cat {A} (a js s1 s2 s3 : list A) d s n :
  d = length a -> s = length s1 -> n = length s2 -> n <= length js ->
  exists js', acopy (a ++ js) d (s1 ++ s2 ++ s3) s n = Some ((a ++ s2) ++ js') /\
    length s2 + length js' = length js.
Proof.
  intros Hd Hs Hn Hl. destruct (split_at js n Hl) as (j1 & j2 & E & L).
  exists j2. rewrite E, app_length. split; [|lia]. rewrite (acopy_spec a j1 j2 s1 s2 s3) by lia.
  rewrite <- app_assoc. reflexivity.
Qed.

(** ** Search in an array *)
Lemma increasing_app a b :
  increasing (a ++ b) <->
  increasing a /\ increasing b /\ (forall x y, In x a -> In y b -> (fst x < fst y)%N).
Proof.
  induction a as [|z a IH]; cbn.
  - split; [intro H; repeat split; auto; intros ? ? []|intros (_ & H & _); exact H].
  - rewrite IH, Forall_app, !Forall_forall. split.
    + intros ((H1 & H2) & H3 & H4 & H5). repeat split; auto.
      intros x y [<-|Hx] Hy; auto.
    + intros ((H1 & H2) & H3 & H4). repeat split; auto.
Qed.
Lemma increasing_cons x b :
  increasing (x :: b) <-> Forall (fun y => (fst x < fst y)%N) b /\ increasing b.
Proof. reflexivity. Qed.

Definition ltk (key : N) (l : list kv) : Prop := Forall (fun e => (fst e < key)%N) l.
Definition gtk (key : N) (l : list kv) : Prop := Forall (fun e => (key < fst e)%N) l.
Definition gek (key : N) (l : list kv) : Prop := Forall (fun e => (key <= fst e)%N) l.

Lemma search_loop_spec key ks js fuel lo rgt :
  increasing ks -> lo <= rgt -> rgt <= length ks -> rgt - lo <= fuel ->
  (forall i e, i < lo -> nth_error ks i = Some e -> (fst e < key)%N) ->
  (forall i e, rgt <= i -> nth_error ks i = Some e -> (key <= fst e)%N) ->
  exists p, search_loop fuel (ks ++ js) lo rgt key = Some p /\ p <= length ks /\
    (forall i e, i < p -> nth_error ks i = Some e -> (fst e < key)%N) /\
    (forall i e, p <= i -> nth_error ks i = Some e -> (key <= fst e)%N).
Proof.
  intro Inc. revert lo rgt. induction fuel as [|f IH]; intros lo rgt H1 H2 H3 Hl Hg; cbn [search_loop].
  - destruct (Nat.ltb_spec lo rgt); [lia|]. exists rgt. repeat split; auto.
    intros i e Hi. apply Hl. lia.
  - destruct (Nat.ltb_spec lo rgt).
    2:{ exists rgt. repeat split; auto. intros i e Hi. apply Hl. lia. }
    set (mid := (lo + rgt - 1) / 2).
    assert (Hm : lo <= mid < rgt).
    { unfold mid. split.
      - apply Nat.div_le_lower_bound; lia.
      - apply Nat.div_lt_upper_bound; lia. }
    clearbody mid.
    destruct (split_nth ks mid) as (a & e & b & E & La); [lia|].
    assert (Hn : nth_error (ks ++ js) mid = Some e).
    { rewrite E, <- app_assoc. apply nth_error_mid. symmetry. exact La. }
    rewrite Hn. cbn [bind].
    rewrite E in Inc. apply increasing_app in Inc. destruct Inc as (Ia & Ib & Iab).
    apply increasing_cons in Ib. destruct Ib as (Ib & _).
    assert (Ha : forall i x, i < mid -> nth_error ks i = Some x -> (fst x < fst e)%N).
    { intros i x Hi Hx. rewrite E, nth_error_app1 in Hx by lia. apply nth_error_In in Hx.
      apply Iab; [exact Hx|left; reflexivity]. }
    assert (Hb : forall i x, mid <= i -> nth_error ks i = Some x -> (fst e <= fst x)%N).
    { intros i x Hi Hx. rewrite E, nth_error_app2 in Hx by lia.
      destruct (i - length a) as [|q] eqn:Q; cbn in Hx.
      - assert (e = x) by congruence. subst. lia.
      - apply nth_error_In in Hx. rewrite Forall_forall in Ib. specialize (Ib _ Hx). lia. }
    destruct (N.eqb_spec (fst e) key) as [Ek|Ek].
    + exists mid. split; [reflexivity|]. split; [lia|]. split.
      * intros i x Hi Hx. specialize (Ha _ _ Hi Hx). lia.
      * intros i x Hi Hx. specialize (Hb _ _ Hi Hx). lia.
    + destruct (N.ltb_spec (fst e) key) as [Lk|Lk].
      * apply IH; try lia; auto.
        intros i x Hi Hx. destruct (Nat.eq_dec i mid) as [->|Q].
        -- rewrite E, (nth_error_mid a e b) in Hx by lia. assert (e = x) by congruence. subst. lia.
        -- specialize (Ha i x). assert (i < mid) by lia. specialize (Ha H0 Hx). lia.
      * apply IH; try lia; auto.
        intros i x Hi Hx. specialize (Hb _ _ Hi Hx). lia.
Qed.
Lemma search_key_spec key ks js :
  increasing ks ->
  exists a b, ks = a ++ b /\ search_key (ks ++ js) (length ks) key = Some (length a) /\
    ltk key a /\ gek key b.
Proof.
  intro Inc. unfold search_key.
  destruct (search_loop_spec key ks js (length ks) 0 (length ks)) as (p & Ep & Hp & Hl & Hg);
    auto; try lia.
  - intros i e Hi Hx. exfalso. assert (i < length ks) by (apply nth_error_Some; congruence). lia.
  - destruct (split_at ks p Hp) as (a & b & E & La). exists a, b. split; [exact E|].
    rewrite La. split; [exact Ep|]. subst p. split; apply Forall_forall.
    + intros x Hx. apply In_nth_error in Hx. destruct Hx as (i & Hi).
      assert (i < length a) by (apply nth_error_Some; rewrite Hi; discriminate).
      apply (Hl i); [assumption|]. rewrite E, nth_error_app1; assumption.
    + intros x Hx. apply In_nth_error in Hx. destruct Hx as (i & Hi).
      apply (Hg (length a + i)); [lia|]. rewrite E, nth_error_app2 by lia.
      replace (length a + i - length a) with i by lia. exact Hi.
Qed.
(** With the first of the rest: a hit or not. *)
Lemma search_hit key ks js :
  increasing ks ->
  exists a b, ks = a ++ b /\ search_key (ks ++ js) (length ks) key = Some (length a) /\ ltk key a /\
    ((exists v b', b = (key, v) :: b' /\ gtk key b') \/ gtk key b).
Proof.
  intro Inc. destruct (search_key_spec key ks js Inc) as (a & b & E & Sk & Hl & Hg).
  exists a, b. split; [exact E|]. split; [exact Sk|]. split; [exact Hl|].
  destruct b as [|[x v] b]; [right; constructor|].
  rewrite E in Inc. apply increasing_app in Inc. destruct Inc as (_ & Ib & _).
  apply increasing_cons in Ib. destruct Ib as (Ib & _).
  inversion Hg as [|? ? Hx Hg']; subst. cbn in Hx.
  destruct (N.eq_dec x key) as [->|Q].
  - left. exists v, b. split; [reflexivity|exact Ib].
  - right. constructor; [cbn; lia|]. eapply Forall_impl; [|exact Ib].
    cbn. intros y Hy. lia.
Qed.
Lemma hit_test key a b js :
  (exists v b', b = (key, v) :: b' /\ gtk key b') ->
  (if length a <? length (a ++ b) then
     e <- nth_error ((a ++ b) ++ js) (length a); Some (N.eqb (fst e) key) else Some false) = Some true.
Proof.
  intros (v & b' & -> & _). rewrite app_length. cbn [length].
  replace (_ <? _) with true by (symmetry; apply Nat.ltb_lt; lia).
  rewrite <- app_assoc. cbn [app]. rewrite nth_error_mid by reflexivity. cbn [bind fst].
  rewrite N.eqb_refl. reflexivity.
Qed.
Lemma miss_test key a b js :
  gtk key b ->
  (if length a <? length (a ++ b) then
     e <- nth_error ((a ++ b) ++ js) (length a); Some (N.eqb (fst e) key) else Some false) = Some false.
Proof.
  intro H. rewrite app_length. destruct b as [|x b].
  - cbn [length]. rewrite Nat.add_0_r, Nat.ltb_irrefl. reflexivity.
  - cbn [length]. replace (_ <? _) with true by (symmetry; apply Nat.ltb_lt; lia).
    rewrite <- app_assoc. cbn [app]. rewrite nth_error_mid by reflexivity. cbn [bind].
    inversion H; subst. f_equal. apply N.eqb_neq. lia.
Qed.

(** ** Entries of a node *)
Fixpoint flatL (ks : list kv) (es : list (list kv)) : list kv :=
  match ks, es with
  | k :: ks', e :: es' => e ++ k :: flatL ks' es'
  | _, _ => []
  end.
Definition flatR (ks : list kv) (es : list (list kv)) : list kv :=
  match ks with [] => [] | k :: ks' => k :: flat ks' es end.

Lemma flat_split a b ca d cb :
  length a = length ca ->
  flat (a ++ b) (ca ++ d :: cb) = flatL a ca ++ d ++ flatR b cb.
Proof.
  revert ca. induction a as [|x a IH]; intros [|e ca] L; cbn in L; try lia.
  - cbn. destruct b; reflexivity.
  - cbn. rewrite IH by lia. rewrite <- !app_assoc. reflexivity.
Qed.
Lemma flatL_app a1 a2 c1 c2 :
  length a1 = length c1 -> flatL (a1 ++ a2) (c1 ++ c2) = flatL a1 c1 ++ flatL a2 c2.
Proof.
  revert c1. induction a1 as [|x a IH]; intros [|e ca] L; cbn in L; try lia; [reflexivity|].
  cbn. rewrite IH by lia. rewrite <- !app_assoc. reflexivity.
Qed.
Lemma flat_nochild ks : flat ks [] = ks.
Proof. destruct ks; reflexivity. Qed.

Definition nd (lf : bool) (ks js : list kv) (cs : list node) : node := mk (length ks) lf (ks ++ js) cs.
Lemma elems_nd lf ks js cs : elems (nd lf ks js cs) = flat ks (map elems cs).
Proof. unfold nd. cbn [elems used kvs chs]. rewrite firstn_app_l by reflexivity. reflexivity. Qed.

(** In an increasing tree, a separator decides for everything on its side. *)
Lemma loc_l key a ca :
  increasing (flatL a ca) -> length a = length ca -> ltk key a -> ltk key (flatL a ca).
Proof.
  revert ca. induction a as [|x a IH]; intros [|e ca] Inc L H; cbn in *; try lia; [constructor|].
  apply increasing_app in Inc. destruct Inc as (I1 & I2 & I3). cbn in I2. destruct I2 as (_ & I2).
  inversion H; subst. apply Forall_app. split.
  - apply Forall_forall. intros y Hy. specialize (I3 y x Hy (or_introl eq_refl)). lia.
  - constructor; [assumption|]. apply IH; auto; lia.
Qed.
Lemma loc_r key b cb : increasing (flatR b cb) -> gtk key b -> gtk key (flatR b cb).
Proof.
  destruct b as [|x b]; cbn; intros Inc H; [constructor|].
  destruct Inc as (I1 & _). inversion H; subst. constructor; [assumption|].
  eapply Forall_impl; [|exact I1]. cbn. intros y Hy. lia.
Qed.
Lemma in_flatL x a ca : In x a -> length a = length ca -> In x (flatL a ca).
Proof.
  revert ca. induction a as [|y a IH]; intros [|e ca] H L; cbn in *; try lia; try contradiction.
  apply in_or_app. right. destruct H as [->|H]; [left; reflexivity|right; apply IH; auto; lia].
Qed.
Lemma increasing_keys ks es :
  (es = [] \/ length es = S (length ks)) -> increasing (flat ks es) -> increasing ks.
Proof.
  intros [->|L]; [rewrite flat_nochild; auto|]. revert es L. induction ks as [|x ks IH]; intros es L Inc; [exact I|].
  destruct es as [|e es]; cbn in *; [lia|].
  apply increasing_app in Inc. destruct Inc as (_ & I2 & _).
  apply increasing_cons in I2. destruct I2 as (I1 & I2). split.
  - apply Forall_forall. intros y Hy. rewrite Forall_forall in I1. apply I1.
    clear - Hy L. revert es L. induction ks as [|z ks IH]; intros es L; [contradiction Hy|].
    destruct es as [|e' es]; cbn in L; [lia|]. cbn. cbn in Hy. apply in_or_app. right. destruct Hy as [->|Hy]; [left; reflexivity|].
    right. apply IH; auto.
  - apply (IH es); [lia|exact I2].
Qed.

(** ** Shape of the tree *)
Inductive wf (k : nat) : nat -> node -> Prop :=
| wf_leaf : forall ks js,
    length ks + length js = k -> length ks < k -> wf k 0 (nd true ks js [])
| wf_inner : forall h ks js cs,
    length ks + length js = k -> length ks < k -> length cs = S (length ks) ->
    Forall (fun c => wf k h c /\ k / 2 - 1 <= used c) cs -> wf k (S h) (nd false ks js cs).

Lemma wf_inv0 k n : wf k 0 n -> exists ks js, n = nd true ks js [] /\
  length ks + length js = k /\ length ks < k.
Proof. intro W. inversion W as [ks js H1 H2 E|]. exists ks, js. auto. Qed.
Lemma wf_invS k h n : wf k (S h) n -> exists ks js cs, n = nd false ks js cs /\
  length ks + length js = k /\ length ks < k /\ length cs = S (length ks) /\
  Forall (fun c => wf k h c /\ k / 2 - 1 <= used c) cs.
Proof. intro W. inversion W as [|? ks js cs H1 H2 H3 H4]. exists ks, js, cs. auto. Qed.

Lemma wf_depth k h n : wf k h n -> depth n = S h.
Proof.
  revert n. induction h as [|h IH]; intros n W; inversion W as [|? ? ? ? H1 H2 H3 H4]; subst.
  - reflexivity.
  - unfold nd. cbn [depth chs]. f_equal.
    destruct cs as [|c cs]; [cbn in H3; lia|]. clear H3 W.
    inversion H4 as [|? ? [Hc _] Hcs]; subst. rewrite (IH c Hc).
    enough (Q : (fix go (l : list node) : nat :=
        match l with [] => 0 | c0 :: t => Nat.max (depth c0) (go t) end) cs <= S h) by lia.
    clear - Hcs IH. induction Hcs as [|x l [Hx _] _ IHl]; [lia|]. rewrite (IH x Hx). lia.
Qed.
Lemma wf_used k h n : wf k h n -> used n < k.
Proof. intro W. inversion W; subst; assumption. Qed.

(** ** Insertion *)
Definition Ins (x : kv) (l l' : list kv) : Prop :=
  exists l1 l2, l = l1 ++ l2 /\ l' = l1 ++ x :: l2 /\ ltk (fst x) l1 /\ gtk (fst x) l2.
Definition Mem (key : N) (l : list kv) : Prop := In key (map fst l).

Lemma not_mem key l1 l2 : ltk key l1 -> gtk key l2 -> ~ Mem key (l1 ++ l2).
Proof.
  intros H1 H2 H. unfold Mem in H. rewrite map_app, in_app_iff in H.
  rewrite !in_map_iff in H. unfold ltk, gtk in *. rewrite Forall_forall in *.
  destruct H as [(e & E & H)|(e & E & H)]; [apply H1 in H|apply H2 in H]; lia.
Qed.
Lemma mem_app key a b : Mem key (a ++ b) <-> Mem key a \/ Mem key b.
Proof. unfold Mem. rewrite map_app, in_app_iff. reflexivity. Qed.

Definition splits (k h : nat) (L : list kv) (n' : node) (r : option (kv * node)) : Prop :=
  match r with
  | None => wf k h n' /\ elems n' = L
  | Some (m, rg) => wf k h n' /\ wf k h rg /\ k / 2 - 1 <= used n' /\ k / 2 - 1 <= used rg /\
                    elems n' ++ m :: elems rg = L
  end.

Lemma half k : 4 <= k -> 2 <= k / 2 /\ 2 * (k / 2) <= k.
Proof.
  intro H. split.
  - apply Nat.div_le_lower_bound; lia.
  - apply Nat.mul_div_le. lia.
Qed.

Lemma split_node_spec k h lf ks js cs :
  4 <= k -> length ks + length js = k -> 1 <= length ks ->
  (lf = true /\ h = 0 /\ cs = [] \/
   lf = false /\ length cs = S (length ks) /\
   exists h', h = S h' /\ Forall (fun c => wf k h' c /\ k / 2 - 1 <= used c) cs) ->
  exists n' r, split_node k (nd lf ks js cs) = Some (n', IDone r) /\
    splits k h (flat ks (map elems cs)) n' r /\ (r = None -> used n' = length ks).
Proof.
  intros Hk L L1 HC. destruct (half k Hk) as (Hh & Hh2).
  unfold split_node. cbn [nd used kvs chs leaf].
  destruct (Nat.eqb_spec (length ks) k) as [E|E].
  - assert (js = []) by (destruct js; cbn in *; [reflexivity|lia]). subst js. rewrite app_nil_r.
    destruct (split_nth ks (k / 2)) as (a & m & b & Ek & La).
    { rewrite E. lia. }
    rewrite E, Ek. rewrite nth_error_mid by lia. cbn [bind].
    assert (Lb : length b = k - k / 2 - 1).
    { rewrite Ek, app_length in E. cbn [length] in E. lia. }
    unfold btnode_create at 1. cbn [kvs].
    destruct (arr_cat (@nil kv) (repeat (0, 0)%N k) (a ++ [m]) b [] 0 (k / 2 + 1) (k - k / 2 - 1))
      as (js' & EC & LJ).
    { reflexivity. } { rewrite app_length. cbn [length nd used]. lia. } { lia. } { rewrite repeat_length. lia. }
    rewrite repeat_length in LJ. cbn [app] in EC. rewrite app_nil_r in EC.
    rewrite <- app_assoc in EC. cbn [app] in EC.
    rewrite EC. cbn [bind]. unfold guard.
    destruct HC as [(-> & -> & ->)|(-> & Lc & h' & -> & Fc)].
    + cbn [orb]. rewrite !firstn_nil, skipn_nil, firstn_nil. eexists _, _. split; [reflexivity|]. cbn [splits].
      replace (mk (k / 2) true (a ++ m :: b) []) with (nd true a (m :: b) [])
        by (unfold nd; rewrite La; reflexivity).
      replace (mk (k - k / 2 - 1) true (b ++ js') []) with (nd true b js' [])
        by (unfold nd; rewrite Lb; reflexivity).
      split; [|discriminate]. split; [|split; [|split; [|split]]].
      * constructor; cbn [length]; lia.
      * constructor; lia.
      * cbn [length nd used]. lia.
      * cbn [length nd used]. lia.
      * rewrite !elems_nd. cbn [map]. rewrite !flat_nochild. reflexivity.
    + assert (La' : k / 2 + 1 + (k - k / 2 - 1 + 1) <= length cs) by lia.
      replace (k / 2 + 1 + (k - k / 2 - 1 + 1) <=? length cs) with true
        by (symmetry; apply Nat.leb_le; exact La').
      cbn [orb].
      destruct (split_at cs (k / 2 + 1)) as (c1 & c2 & Ec & L1'); [lia|].
      assert (L2 : length c2 = S (length b)).
      { rewrite Ec, app_length in Lc. lia. }
      rewrite Ec. rewrite firstn_app_l by lia. rewrite skipn_app_l by lia.
      rewrite (firstn_all2 c2) by lia.
      eexists _, _. split; [reflexivity|]. cbn [splits].
      replace (mk (k / 2) false (a ++ m :: b) c1) with (nd false a (m :: b) c1)
        by (unfold nd; rewrite La; reflexivity).
      replace (mk (k - k / 2 - 1) false (b ++ js') c2) with (nd false b js' c2)
        by (unfold nd; rewrite Lb; reflexivity).
      rewrite Ec in Fc. apply Forall_app in Fc. destruct Fc as (F1 & F2).
      split; [|discriminate]. split; [|split; [|split; [|split]]].
      * constructor; cbn [length]; try lia. exact F1.
      * constructor; try lia. exact F2.
      * cbn [length nd used]. lia.
      * cbn [length nd used]. lia.
      * rewrite !elems_nd.
        destruct (list_snoc c1) as (c1' & d & Ed); [destruct c1; [cbn [length] in L1'; lia|discriminate]|].
        subst c1. rewrite app_length in L1'. cbn [length] in L1'.
        rewrite !map_app. cbn [map]. rewrite <- app_assoc. cbn [app].
        rewrite flat_split by (rewrite map_length; lia).
        replace (flat a (map elems c1' ++ [elems d])) with (flat (a ++ []) (map elems c1' ++ [elems d]))
          by (rewrite app_nil_r; reflexivity).
        rewrite flat_split by (rewrite map_length; lia).
        cbn [flatR]. rewrite app_nil_r, <- !app_assoc. reflexivity.
  - eexists _, _. split; [reflexivity|]. cbn [splits]. split; [|reflexivity].
    change (mk (length ks) lf (ks ++ js) cs) with (nd lf ks js cs).
    rewrite elems_nd. split; [|reflexivity].
    destruct HC as [(-> & -> & ->)|(-> & Lc & h' & -> & Fc)]; constructor; auto; lia.
Qed.

Lemma set_child_mid ca c cb c' : set_child (ca ++ c :: cb) (length ca) c' = ca ++ c' :: cb.
Proof.
  unfold set_child. rewrite firstn_app_l by reflexivity.
  rewrite (app_cons_assoc ca c), skipn_app_l; [reflexivity|]. rewrite app_length. cbn [length nd used]. lia.
Qed.

(** The child to descend into, and where its entries lie. *)
Lemma descend key h k a b js cs :
  wf k (S h) (nd false (a ++ b) js cs) -> increasing (elems (nd false (a ++ b) js cs)) ->
  ltk key a -> gtk key b ->
  exists ca c cb, cs = ca ++ c :: cb /\ length ca = length a /\ length cb = length b /\
    wf k h c /\ k / 2 - 1 <= used c /\ increasing (elems c) /\
    elems (nd false (a ++ b) js cs) =
      flatL a (map elems ca) ++ elems c ++ flatR b (map elems cb) /\
    ltk key (flatL a (map elems ca)) /\ gtk key (flatR b (map elems cb)).
Proof.
  intros W Inc Ha Hb. inversion W as [|? ks0 js0 cs0 H1 H2 H3 H4 E1 E2]; subst.
  assert (LL : length ks0 = length (a ++ b)) by assumption.
  rewrite LL in H3. rewrite app_length in H3.
  destruct (split_nth cs (length a)) as (ca & c & cb & E & L); [lia|].
  exists ca, c, cb. split; [exact E|]. split; [exact L|].
  rewrite E, app_length in H3. cbn [length] in H3. split; [lia|].
  rewrite E in H4. apply Forall_app in H4. destruct H4 as (_ & H4).
  inversion H4 as [|? ? [Wc Uc] _]; subst. split; [exact Wc|]. split; [exact Uc|].
  rewrite elems_nd, map_app in *. cbn [map] in *.
  rewrite flat_split in * by (rewrite map_length; lia).
  apply increasing_app in Inc. destruct Inc as (I1 & I2 & _).
  apply increasing_app in I2. destruct I2 as (I2 & I3 & _).
  split; [exact I2|]. split; [reflexivity|]. split.
  - apply loc_l; auto. rewrite map_length. lia.
  - apply loc_r; auto.
Qed.

Lemma ltb_true a b : a < b -> (a <? b) = true.
Proof. apply Nat.ltb_lt. Qed.
Lemma leb_true a b : a <= b -> (a <=? b) = true.
Proof. apply Nat.leb_le. Qed.

Theorem btnode_insert_spec k h : 4 <= k -> forall fuel n (x : kv),
  h < fuel -> wf k h n -> increasing (elems n) ->
  (Mem (fst x) (elems n) -> btnode_insert fuel k n x = Some (n, IFail)) /\
  (~ Mem (fst x) (elems n) ->
     exists n' r L, btnode_insert fuel k n x = Some (n', IDone r) /\
       Ins x (elems n) L /\ splits k h L n' r /\ (r = None -> used n <= used n' /\ 1 <= used n' + h) /\
       (r = None -> forall c0, nth_error (chs n) 0 = Some c0 -> used n' = 0 ->
          exists c1, nth_error (chs n') 0 = Some c1 /\ used c0 <= used c1)).
Proof.
  intro Hk. destruct (half k Hk) as (Hh & Hh2).
  induction h as [|h IH]; intros fuel n x Hf W Inc.
  - destruct (wf_inv0 _ _ W) as (ks & js & -> & H1 & H2). destruct fuel as [|f]; [lia|].
    rewrite elems_nd in *. cbn [map] in *. rewrite flat_nochild in *.
    destruct (search_hit (fst x) ks js Inc) as (a & b & Eab & Sk & Ha & Hb).
    cbn [btnode_insert]. cbn [nd used kvs leaf chs]. rewrite Sk. cbn [bind]. subst ks.
    destruct Hb as [Hb|Hb].
    + rewrite hit_test by exact Hb. cbn [bind]. split; [reflexivity|]. intro Q. exfalso. apply Q.
      destruct Hb as (v & b' & -> & _). apply mem_app. right. left. reflexivity.
    + rewrite miss_test by exact Hb. cbn [bind]. split.
      { intro Q. exfalso. exact (not_mem _ _ _ Ha Hb Q). }
      intros _. rewrite app_length in *. unfold guard. rewrite (ltb_true (length a) k) by lia.
      destruct js as [|z js]; [cbn [length] in H1; lia|].
      destruct (arr_ins a b z js x (length a) (length b) eq_refl eq_refl) as (l & E1 & E2).
      replace (length a + length b - length a) with (length b) by lia. rewrite E1. cbn [bind].
      rewrite E2. cbn [bind].
      replace (mk (S (length a + length b)) true ((a ++ x :: b) ++ js) [])
        with (nd true (a ++ x :: b) js [])
        by (unfold nd; rewrite app_length; cbn [length]; f_equal; lia).
      destruct (split_node_spec k 0 true (a ++ x :: b) js []) as (n' & r & E3 & Hs & Hu).
      { exact Hk. } { rewrite app_length. cbn [length] in *. lia. } { rewrite app_length. cbn [length nd used]. lia. }
      { left. auto. }
      cbn [map] in Hs. rewrite flat_nochild in Hs.
      exists n', r, (a ++ x :: b). split; [exact E3|]. split.
      { exists a, b. auto. }
      split; [exact Hs|]. split.
      { intro Q. rewrite (Hu Q). rewrite app_length. cbn [length nd used]. lia. }
      { intros _ c0 Q. discriminate Q. }
  - destruct (wf_invS _ _ _ W) as (ks & js & cs & -> & H1 & H2 & H3 & H4). destruct fuel as [|f]; [lia|].
    assert (Ik : increasing ks).
    { rewrite elems_nd in Inc. apply (increasing_keys ks (map elems cs)); [|exact Inc].
      right. rewrite map_length. exact H3. }
    destruct (search_hit (fst x) ks js Ik) as (a & b & Eab & Sk & Ha & Hb).
    cbn [btnode_insert]. cbn [nd used kvs leaf chs]. rewrite Sk. cbn [bind]. subst ks.
    destruct Hb as [Hb|Hb].
    + rewrite hit_test by exact Hb. cbn [bind]. split; [reflexivity|]. intro Q. exfalso. apply Q.
      destruct Hb as (v & b' & -> & _). rewrite app_length in H3. cbn [length] in H3.
      destruct (split_nth cs (length a)) as (ca & c & cb & Ec & Lc); [lia|].
      rewrite elems_nd, Ec, map_app. cbn [map].
      rewrite flat_split by (rewrite map_length; lia).
      rewrite !mem_app. right. right. left. reflexivity.
    + rewrite miss_test by exact Hb. cbn [bind].
      destruct (descend (fst x) h k a b js cs W Inc Ha Hb)
        as (ca & c & cb & Ec & Lca & Lcb & Wc & Uc & Ic & Ee & Hl & Hr).
      rewrite Ee. unfold guard at 1 2. rewrite app_length in *.
      rewrite (ltb_true (length a) k) by lia.
      rewrite Ec, nth_error_mid by lia. cbn [bind].
      destruct (IH f c x ltac:(lia) Wc Ic) as (IH1 & IH2). split.
      * intro Q. rewrite !mem_app in Q. destruct Q as [Q|[Q|Q]].
        { exfalso. apply (not_mem (fst x) _ [] Hl); [constructor|]. rewrite app_nil_r. exact Q. }
        2:{ exfalso. apply (not_mem (fst x) [] (flatR b (map elems cb))); [constructor|exact Hr|exact Q]. }
        rewrite (IH1 Q). cbn [bind]. rewrite <- Lca, set_child_mid.
        unfold nd. rewrite Lca, <- app_length. reflexivity.
      * intro Q. rewrite !mem_app in Q.
        destruct (IH2 ltac:(tauto)) as (c' & r & L & Ei & HI & HS & HU & _).
        rewrite Ei. cbn [bind]. rewrite <- Lca, set_child_mid. rewrite !Lca.
        rewrite Ec in H4. apply Forall_app in H4. destruct H4 as (F1 & F2).
        pose proof (Forall_inv_tail F2) as F3.
        assert (HI' : Ins x (flatL a (map elems ca) ++ elems c ++ flatR b (map elems cb))
                          (flatL a (map elems ca) ++ L ++ flatR b (map elems cb))).
        { destruct HI as (l1 & l2 & E1 & E2 & G1 & G2).
          exists (flatL a (map elems ca) ++ l1), (l2 ++ flatR b (map elems cb)).
          rewrite E1, E2, <- !app_assoc. cbn. repeat split; try (apply Forall_app; split); assumption. }
        destruct r as [[m rg]|].
        -- cbn [splits] in HS. destruct HS as (W1 & W2 & U1 & U2 & EL).
           destruct js as [|z js]; [cbn [length] in H1; lia|].
           cbn [kvs chs].
           destruct (arr_ins a b z js m (length a) (length b) eq_refl eq_refl) as (l & E1 & E2).
           replace (length a + length b - length a) with (length b) by lia. rewrite E1. cbn [bind].
           rewrite E2. cbn [bind]. unfold guard. rewrite (leb_true (length a + length b + 1) k) by lia.
           replace (firstn (S (length a)) (ca ++ c' :: cb)) with (ca ++ [c'])
             by (rewrite (app_cons_assoc ca c' cb), firstn_app_l; [reflexivity|rewrite app_length; cbn; lia]).
           replace (skipn (S (length a)) (ca ++ c' :: cb)) with cb
             by (rewrite (app_cons_assoc ca c' cb), skipn_app_l; [reflexivity|rewrite app_length; cbn; lia]).
           replace (mk (S (length a + length b)) false ((a ++ m :: b) ++ js) ((ca ++ [c']) ++ rg :: cb))
             with (nd false (a ++ m :: b) js (ca ++ c' :: rg :: cb))
             by (unfold nd; rewrite app_length, <- !app_assoc; cbn [length app]; f_equal; lia).
           destruct (split_node_spec k (S h) false (a ++ m :: b) js (ca ++ c' :: rg :: cb))
             as (n' & r & E3 & Hs & Hu).
           { exact Hk. } { rewrite app_length. cbn [length] in *. lia. } { rewrite app_length. cbn [length nd used]. lia. }
           { right. split; [reflexivity|]. rewrite !app_length. cbn [length]. split; [lia|].
             exists h. split; [reflexivity|]. apply Forall_app. split; [exact F1|].
             constructor; [split; assumption|]. constructor; [split; assumption|exact F3]. }
           eexists n', r, _. split; [exact E3|]. split; [exact HI'|]. split.
           { rewrite <- EL. replace (_ ++ (elems c' ++ m :: elems rg) ++ _) with
               (flat (a ++ m :: b) (map elems (ca ++ c' :: rg :: cb))); [exact Hs|].
             rewrite map_app. cbn [map]. rewrite flat_split by (rewrite map_length; lia).
             cbn [flatR]. cbn [flat]. rewrite <- !app_assoc. destruct b; reflexivity. }
           split.
           { intro Qr. rewrite (Hu Qr). rewrite app_length. cbn [length nd used]. lia. }
           { intros Qr c0 _ Q0. rewrite (Hu Qr), app_length in Q0. cbn in Q0. lia. }
        -- cbn [splits] in HS. destruct HS as (W1 & EL). specialize (HU eq_refl). destruct HU as (HU & _).
           destruct (Nat.eq_dec (length a + length b) 0) as [Z|Z].
           { unfold split_node. cbn [used]. destruct (Nat.eqb_spec (length a + length b) k); [lia|].
             assert (a = []) by (destruct a; [reflexivity|cbn [length] in Z; lia]).
             assert (b = []) by (destruct b; [reflexivity|cbn [length] in Z; lia]). subst a b.
             destruct ca; [|cbn [length] in Lca; lia]. destruct cb; [|cbn [length] in Lcb; lia]. cbn [app length] in *.
             eexists _, None, _. split; [reflexivity|]. split; [exact HI'|]. cbn [splits].
             change (mk (0 + 0) false js [c']) with (nd false [] js [c']). split; [|split].
             - split.
               + constructor; cbn [length]; try lia. constructor; [split; [exact W1|lia]|constructor].
               + rewrite elems_nd. cbn. rewrite EL. reflexivity.
             - intros _. cbn [nd used length]. lia.
             - intros _ c0 Q0 _. cbn in Q0. exists c'. split; [reflexivity|].
               assert (c0 = c) by congruence. subst. exact HU. }
           assert (L' : length (ca ++ c' :: cb) = S (length a + length b))
             by (rewrite app_length; cbn; lia).
           replace (mk (length a + length b) false ((a ++ b) ++ js) (ca ++ c' :: cb))
             with (nd false (a ++ b) js (ca ++ c' :: cb)) by (unfold nd; rewrite app_length; reflexivity).
           destruct (split_node_spec k (S h) false (a ++ b) js (ca ++ c' :: cb))
             as (n' & r & E3 & Hs & Hu).
           { exact Hk. } { rewrite app_length. cbn [length] in *. lia. } { rewrite app_length. lia. }
           { right. split; [reflexivity|]. rewrite !app_length. cbn [length]. split; [lia|].
             exists h. split; [reflexivity|]. apply Forall_app. split; [exact F1|].
             constructor; [split; [exact W1|lia]|exact F3]. }
           exists n', r, (flatL a (map elems ca) ++ L ++ flatR b (map elems cb)).
           split; [exact E3|]. split; [exact HI'|]. split.
           { rewrite <- EL. rewrite map_app in Hs. cbn [map] in Hs.
             rewrite flat_split in Hs by (rewrite map_length; lia). exact Hs. }
           split.
           { intro Qr. rewrite (Hu Qr). rewrite app_length. lia. }
           { intros Qr c0 _ Q0. rewrite (Hu Qr), app_length in Q0. lia. }
Qed.
