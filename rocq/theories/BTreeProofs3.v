(** Proofs about the B-tree: removal from a node, and histories. *)
From Coq Require Import List Arith NArith Bool Lia.
From Coq Require Import ZifyBool ZifyNat ZifyN.
From Verif Require Import BTreeModel BTreeSpec BTreeProofs BTreeProofs2.
Import ListNotations.
Open Scope nat_scope.

Definition del_ok (key : N) (l l' : list kv) (ok : bool) : Prop :=
  if ok then exists l1 v l2, l = l1 ++ (key, v) :: l2 /\ l' = l1 ++ l2
  else l' = l /\ ~ Mem key l.

Lemma mem_uniq key v v' (l1 l2 m1 m2 : list kv) :
  increasing (l1 ++ (key, v) :: l2) -> l1 ++ (key, v) :: l2 = m1 ++ (key, v') :: m2 ->
  l1 = m1 /\ l2 = m2.
Proof.
  revert m1. induction l1 as [|x l1 IH]; intros [|y m1] Inc E; cbn in E.
  - inversion E; auto.
  - inversion E; subst. cbn in Inc. destruct Inc as (Inc & _).
    rewrite Forall_app in Inc. destruct Inc as (_ & Inc). inversion Inc as [|? ? Q _]. cbn in Q. lia.
  - inversion E; subst. cbn in Inc. destruct Inc as (Inc & _).
    rewrite Forall_app in Inc. destruct Inc as (_ & Inc). inversion Inc as [|? ? Q _]. cbn in Q. lia.
  - inversion E; subst. cbn in Inc. destruct Inc as (_ & Inc). destruct (IH m1 Inc H1) as (-> & ->). auto.
Qed.

Section K.
Variable k : nat.
Hypothesis Hk : 4 <= k.
Let H2 := k / 2.

Lemma hb3 : 2 <= H2 /\ 2 * H2 <= k.
Proof. exact (half k Hk). Qed.

Lemma rightmost_spec h : forall fuel n,
  h < fuel -> wf k h n -> 1 <= used n -> exists l x, rightmost fuel n = Some x /\ elems n = l ++ [x].
Proof.
  destruct hb3 as (Hh & Hh2).
  induction h as [|h IH]; intros [|f] n Hf W U; try lia; cbn [rightmost].
  - destruct (wf_inv0 _ _ W) as (ks & js & -> & L & L'). cbn [nd leaf used kvs] in *.
    destruct (list_snoc ks) as (l & x & ->); [destruct ks; [cbn [length] in U; lia|discriminate]|].
    unfold guard. rewrite leb_true by lia.
    exists l, x. rewrite app_length. cbn [length]. rewrite <- app_assoc. cbn [app].
    rewrite nth_error_mid by lia. split; [reflexivity|].
    rewrite elems_nd. cbn [map]. apply flat_nochild.
  - destruct (wf_invS _ _ _ W) as (ks & js & cs & -> & L & L' & C & F). cbn [nd leaf used chs] in *.
    destruct (list_snoc cs) as (cs' & c & ->); [destruct cs; [cbn [length] in C; lia|discriminate]|].
    rewrite app_length in C. cbn [length] in C.
    rewrite nth_error_mid by lia. cbn [bind].
    apply Forall_app in F. destruct F as (_ & F). pose proof (Forall_inv F) as (Wc & Uc). fold H2 in Uc.
    destruct (IH f c ltac:(lia) Wc ltac:(lia)) as (l & x & E & El).
    rewrite elems_nd, map_app. cbn [map].
    destruct (list_snoc ks) as (k' & y & ->); [destruct ks; [cbn [length] in U; lia|discriminate]|].
    rewrite app_length in *. cbn [length] in *.
    exists (flat k' (map elems cs') ++ y :: l), x. split; [exact E|].
    rewrite flat_snoc by (rewrite map_length; lia). rewrite El, <- app_assoc. reflexivity.
Qed.
Lemma leftmost_spec h : forall fuel n,
  h < fuel -> wf k h n -> 1 <= used n -> exists l x, leftmost fuel n = Some x /\ elems n = x :: l.
Proof.
  destruct hb3 as (Hh & Hh2).
  induction h as [|h IH]; intros [|f] n Hf W U; try lia; cbn [leftmost].
  - destruct (wf_inv0 _ _ W) as (ks & js & -> & L & L'). cbn [nd leaf used kvs] in *.
    destruct ks as [|x l]; [cbn [length] in U; lia|].
    exists l, x. split; [reflexivity|].
    rewrite elems_nd. cbn [map]. apply flat_nochild.
  - destruct (wf_invS _ _ _ W) as (ks & js & cs & -> & L & L' & C & F). cbn [nd leaf used chs] in *.
    destruct cs as [|c cs]; [cbn [length] in C; lia|]. cbn [nth_error bind].
    pose proof (Forall_inv F) as (Wc & Uc). fold H2 in Uc.
    destruct (IH f c ltac:(lia) Wc ltac:(lia)) as (l & x & E & El).
    rewrite elems_nd. cbn [map]. rewrite flat_cons, El.
    exists (l ++ flatR ks (map elems cs)), x. split; [exact E|reflexivity].
Qed.

Lemma set_child_at ca c cb c' n : n = length ca -> set_child (ca ++ c :: cb) n c' = ca ++ c' :: cb.
Proof. intros ->. apply set_child_mid. Qed.

(** Descending into a child with enough keys. *)
Lemma del_descend f a b js ca c cb key :
  increasing (a ++ b) -> ltk key a -> gtk key b -> length ca = length a -> H2 <= used c ->
  btnode_delete (S f) k (nd false (a ++ b) js (ca ++ c :: cb)) key =
  match btnode_delete f k c key with
  | None => None
  | Some r => Some (nd false (a ++ b) js (ca ++ fst r :: cb), snd r)
  end.
Proof.
  intros Inc Ha Hb Lca Uc. cbn [btnode_delete]. cbn [nd used kvs leaf chs].
  assert (Sk : search_key ((a ++ b) ++ js) (length (a ++ b)) key = Some (length a)).
  { destruct (search_key_spec key (a ++ b) js Inc) as (a' & b' & E & Sk & Hl & Hg).
    rewrite Sk. f_equal.
    assert (Q : a = a').
    { clear - E Ha Hb Hl Hg. revert a' Hl E. induction a as [|x a IH]; intros [|y a'] Hl E; cbn in E.
      - reflexivity.
      - subst b. inversion Hb; inversion Hl; subst. cbn in *. lia.
      - subst b'. inversion Ha; inversion Hg; subst. cbn in *. lia.
      - inversion E; subst. f_equal. apply IH; auto; [exact (Forall_inv_tail Ha)|exact (Forall_inv_tail Hl)]. }
    rewrite Q. reflexivity. }
  rewrite Sk. cbn [bind]. rewrite miss_test by exact Hb. cbn [bind].
  rewrite nth_error_mid by lia. cbn [bind]. fold H2.
  replace (used c <? H2) with false by (symmetry; apply Nat.ltb_ge; lia). cbn [bind]. cbn [nd used kvs leaf chs].
  replace ((length a =? length (a ++ b)) && (length (a ++ b) <? length a)) with false.
  2:{ symmetry. rewrite app_length. apply andb_false_iff. right. apply Nat.ltb_ge. lia. }
  cbn [used chs leaf kvs].
  rewrite nth_error_mid by lia. cbn [bind]. destruct (btnode_delete f k c key) as [r|]; [|reflexivity].
  cbn [bind]. rewrite set_child_at by lia. reflexivity.
Qed.

Definition pre (h : nat) (n : node) : Prop :=
  h = 0 \/ 1 <= used n \/ exists c, chs n = [c] /\ H2 <= used c.
Definition post (h : nat) (n n' : node) (key : N) (ok : bool) : Prop :=
  wf k h n' /\ del_ok key (elems n) (elems n') ok /\ used n - 1 <= used n' /\
  (ok = false -> h = 0 -> used n' = used n) /\
  (used n' = 0 -> 0 < h -> exists c', chs n' = [c'] /\ (1 <= used n -> 2 * H2 - 2 <= used c') /\
      forall c, chs n = [c] -> used c - 1 <= used c').

Lemma del_ok_mid key L l l' R ok :
  ltk key L -> gtk key R -> del_ok key l l' ok -> del_ok key (L ++ l ++ R) (L ++ l' ++ R) ok.
Proof.
  intros HL HR H. destruct ok; cbn in *.
  - destruct H as (l1 & v & l2 & -> & ->). exists (L ++ l1), v, (l2 ++ R).
    rewrite <- !app_assoc. auto.
  - destruct H as (-> & Q). split; [reflexivity|]. rewrite !mem_app. intros [P|[P|P]].
    + apply (not_mem key L []); [exact HL|constructor|rewrite app_nil_r; exact P].
    + exact (Q P).
    + apply (not_mem key [] R); [constructor|exact HR|exact P].
Qed.

Theorem btnode_delete_spec h : forall fuel n key,
  2 * h + 1 <= fuel -> wf k h n -> increasing (elems n) -> pre h n ->
  exists n' ok, btnode_delete fuel k n key = Some (n', ok) /\ post h n n' key ok.
Proof.
  destruct hb3 as (Hh & Hh2).
  induction h as [|h IH]; intros fuel n key Hf W Inc P.
  - destruct (wf_inv0 _ _ W) as (ks & js & -> & L & L'). destruct fuel as [|f]; [lia|].
    rewrite elems_nd in Inc. cbn [map] in Inc. rewrite flat_nochild in Inc.
    destruct (search_hit key ks js Inc) as (a & b & -> & Sk & Ha & Hb).
    cbn [btnode_delete]. cbn [nd used kvs leaf chs]. rewrite Sk. cbn [bind].
    destruct Hb as [Hb|Hb].
    + rewrite hit_test by exact Hb. cbn [bind].
      destruct Hb as (v & b' & -> & Hb). rewrite app_length in *. cbn [length] in *.
      replace (length a + S (length b') - length a - 1) with (length b') by lia.
      destruct (arr_del (A:=kv) a (key, v) b' js (length a) (length b') eq_refl eq_refl) as (js' & E & LJ).
      rewrite E. cbn [bind]. rewrite nd_eq by (rewrite app_length; lia).
      exists (nd true (a ++ b') js' []), true. split; [reflexivity|].
      split; [apply wf_nd_leaf; rewrite app_length; lia|].
      rewrite !elems_nd. cbn [map nd used]. rewrite !flat_nochild, !app_length. cbn [length].
      split; [exists a, v, b'; auto|]. split; [lia|]. split; [discriminate|lia].
    + rewrite miss_test by exact Hb. cbn [bind].
      eexists _, false. split; [reflexivity|]. change (mk (length (a ++ b)) true ((a ++ b) ++ js) []) with (nd true (a ++ b) js []).
      split; [exact W|]. split.
      * split; [reflexivity|]. rewrite elems_nd. cbn [map]. rewrite flat_nochild. apply not_mem; assumption.
      * split; [lia|]. split; [reflexivity|lia].
  - destruct (wf_invS _ _ _ W) as (ks & js & cs & -> & L & L' & C & F). destruct fuel as [|f]; [lia|].
    assert (Ik : increasing ks).
    { rewrite elems_nd in Inc. apply (increasing_keys ks (map elems cs)); [|exact Inc].
      right. rewrite map_length. exact C. }
    destruct (search_hit key ks js Ik) as (a & b & -> & Sk & Ha & Hb).
    destruct Hb as [Hb|Hb].
    + pose proof Hb as Hb0. destruct Hb as (v & b' & -> & Hb).
      rewrite app_length in *. cbn [length] in *.
      destruct (split_nth cs (length a)) as (ca & c & cb & -> & Lc); [lia|].
      rewrite app_length in C. cbn [length] in C. destruct cb as [|d cb]; [cbn [length] in C; lia|].
      cbn [length] in C.
      apply Forall_app in F. destruct F as (Fa & F).
      pose proof (Forall_inv F) as (Wc & Uc). pose proof (Forall_inv_tail F) as F'.
      pose proof (Forall_inv F') as (Wd & Ud). pose proof (Forall_inv_tail F') as Fb. fold H2 in Uc, Ud.
      assert (Ee : elems (nd false (a ++ (key, v) :: b') js (ca ++ c :: d :: cb)) =
                flatL a (map elems ca) ++ elems c ++ (key, v) :: elems d ++ flatR b' (map elems cb)).
      { rewrite elems_nd, map_app. cbn [map]. rewrite flat_split by (rewrite map_length; lia).
        cbn [flatR]. rewrite flat_cons. reflexivity. }
      rewrite Ee in Inc. pose proof Inc as Inc0.
      apply increasing_app in Inc. destruct Inc as (I1 & I2 & _).
      apply increasing_app in I2. destruct I2 as (Ic & I2 & I2').
      apply increasing_cons in I2. destruct I2 as (I3 & I2).
      apply increasing_app in I2. destruct I2 as (Id & I4 & _).
      cbn [btnode_delete]. cbn [nd used kvs leaf chs].
      replace (length a + S (length b')) with (length (a ++ (key, v) :: b')) in Sk
        by (rewrite app_length; reflexivity).
      rewrite Sk. cbn [bind]. rewrite hit_test by exact Hb0. cbn [bind].
      rewrite (nth_error_mid ca c) by lia. cbn [bind]. fold H2.
      destruct (Nat.leb_spec H2 (used c)) as [Q|Q].
      * destruct (rightmost_spec h f c ltac:(lia) Wc ltac:(lia)) as (l & x & Er & El).
        rewrite Er. cbn [bind]. rewrite <- (app_assoc a). cbn [app].
        rewrite aset_mid by reflexivity. cbn [bind].
        destruct (IH f c (fst x) ltac:(lia) Wc Ic ltac:(right; left; lia)) as (c' & ok & E & Wc' & Dc & Uc' & _).
        rewrite E. cbn [bind fst snd]. rewrite set_child_at by lia.
        destruct ok; cbn [del_ok] in Dc.
        2:{ exfalso. destruct Dc as (_ & Dc). apply Dc. rewrite El. apply mem_app. right. left. reflexivity. }
        destruct Dc as (l1 & w & l2 & El1 & El2).
        assert (Q1 : l1 = l /\ l2 = []).
        { apply (mem_uniq (fst x) w (snd x)); [rewrite <- El1; exact Ic|].
          rewrite <- El1, El. destruct x; reflexivity. }
        destruct Q1 as (-> & ->). rewrite app_nil_r in El2.
        change (x :: b' ++ js) with ((x :: b') ++ js).
        rewrite app_assoc, nd_eq by (rewrite !app_length; reflexivity).
        eexists _, true. split; [reflexivity|].
        split.
        { apply wf_nd_inner; rewrite ?app_length; cbn [length]; try lia.
          apply Forall_app. split; [exact Fa|]. constructor; [|exact F'].
          split; [exact Wc'|]. fold H2. lia. }
        split.
        { rewrite Ee. cbn [del_ok]. exists (flatL a (map elems ca) ++ elems c), v, (elems d ++ flatR b' (map elems cb)).
          rewrite <- app_assoc. split; [reflexivity|].
          rewrite elems_nd, map_app. cbn [map]. rewrite flat_split by (rewrite map_length; lia).
          cbn [flatR]. rewrite flat_cons, El2, El, <- !app_assoc. reflexivity. }
        cbn [nd used]. rewrite !app_length. cbn [length].
        split; [lia|]. split; [discriminate|lia].
      * rewrite (nth_error_mid1 ca c d) by lia. cbn [bind].
        destruct (Nat.leb_spec H2 (used d)) as [Q'|Q'].
        -- destruct (leftmost_spec h f d ltac:(lia) Wd ltac:(lia)) as (l & x & Er & El).
           rewrite Er. cbn [bind]. rewrite <- (app_assoc a). cbn [app].
           rewrite aset_mid by reflexivity. cbn [bind].
           destruct (IH f d (fst x) ltac:(lia) Wd Id ltac:(right; left; lia)) as (d' & ok & E & Wd' & Dd & Ud' & _).
           rewrite E. cbn [bind fst snd].
           rewrite (app_cons_assoc ca c), (set_child_at (ca ++ [c]) d cb d')
             by (rewrite app_length; cbn [length]; lia).
           destruct ok; cbn [del_ok] in Dd.
           2:{ exfalso. destruct Dd as (_ & Dd). apply Dd. rewrite El. left. reflexivity. }
           destruct Dd as (l1 & w & l2 & El1 & El2).
           assert (Q1 : l1 = [] /\ l2 = l).
           { apply (mem_uniq (fst x) w (snd x)); [rewrite <- El1; exact Id|].
             rewrite <- El1, El. destruct x; reflexivity. }
           destruct Q1 as (-> & ->). cbn [app] in El2.
           change (x :: b' ++ js) with ((x :: b') ++ js).
           rewrite (app_assoc a), nd_eq by (rewrite !app_length; reflexivity).
           rewrite <- (app_assoc ca). cbn [app].
           eexists _, true. split; [reflexivity|].
           split.
           { apply wf_nd_inner; rewrite ?app_length; cbn [length]; try lia.
             apply Forall_app. split; [exact Fa|]. constructor; [exact (Forall_inv F)|].
             constructor; [|exact Fb]. split; [exact Wd'|]. fold H2. lia. }
           split.
           { rewrite <- (app_cons_assoc ca c), Ee. cbn [del_ok].
             exists (flatL a (map elems ca) ++ elems c), v, (elems d ++ flatR b' (map elems cb)).
             rewrite <- app_assoc. split; [reflexivity|].
             rewrite elems_nd, map_app. cbn [map]. rewrite flat_split by (rewrite map_length; lia).
             cbn [flatR]. rewrite flat_cons, El2, El, <- !app_assoc. reflexivity. }
           cbn [nd used]. rewrite !app_length. cbn [length].
           split; [lia|]. split; [discriminate|lia].
        -- change (mk (length (a ++ (key, v) :: b')) false ((a ++ (key, v) :: b') ++ js) (ca ++ c :: d :: cb))
             with (nd false (a ++ (key, v) :: b') js (ca ++ c :: d :: cb)).
           destruct (merge_spec k Hk h a (key, v) b' js ca c d cb (length a))
             as (m & js' & EM & LM & Wm & Um & Em); auto; try (fold H2; lia).
           { rewrite app_length. cbn [length]. lia. }
           fold H2 in Um. rewrite EM. cbn [bind].
           destruct f as [|f]; [lia|].
           assert (Hlt : ltk key a) by exact Ha.
           assert (Iab : increasing (a ++ b')).
           { apply increasing_app in Ik. destruct Ik as (J1 & J2 & J3).
             apply increasing_app. cbn in J2. destruct J2 as (_ & J2). split; [exact J1|]. split; [exact J2|].
             intros x y Hx Hy. apply J3; [exact Hx|right; exact Hy]. }
           rewrite del_descend by (auto; lia).
           assert (Im : increasing (elems m)).
           { rewrite Em. apply increasing_app in Inc0. destruct Inc0 as (_ & J & _).
             change ((key, v) :: elems d ++ flatR b' (map elems cb)) with (((key, v) :: elems d) ++ flatR b' (map elems cb)) in J.
             rewrite app_assoc in J. apply increasing_app in J. tauto. }
           destruct (IH f m key ltac:(lia) Wm Im ltac:(right; left; lia)) as (m' & ok & E & Wm' & Dm & Um' & _).
           rewrite E. cbn [fst snd].
           eexists _, ok. split; [reflexivity|]. split.
           { apply wf_nd_inner; rewrite ?app_length; cbn [length]; try lia.
             apply Forall_app. split; [exact Fa|]. constructor; [|exact Fb].
             split; [exact Wm'|]. fold H2. lia. }
           split.
           { rewrite Ee. replace (elems c ++ (key, v) :: elems d ++ flatR b' (map elems cb))
               with (elems m ++ flatR b' (map elems cb)) by (rewrite Em, <- app_assoc; reflexivity).
             rewrite elems_nd, map_app. cbn [map]. rewrite flat_split by (rewrite map_length; lia).
             apply del_ok_mid; [| |exact Dm].
             - apply loc_l; [exact I1|rewrite map_length; lia|exact Ha].
             - apply loc_r; [exact I4|exact Hb]. }
           cbn [nd used chs]. rewrite !app_length. cbn [length].
           split; [lia|]. split; [lia|]. intros Z _.
           destruct ca; [|cbn [length] in *; lia]. destruct cb; [|cbn [length] in *; lia].
           exists m'. split; [reflexivity|]. split; [lia|]. intros c0 Q0. discriminate Q0.
    + destruct (descend key h k a b js cs W Inc Ha Hb)
        as (ca & c & cb & -> & Lca & Lcb & Wc & Uc & Ic & Ee & Hl & Hr).
      fold H2 in Uc.
      destruct (Nat.le_gt_cases H2 (used c)) as [Q|Q].
      * rewrite del_descend by (auto; lia).
        destruct (IH f c key ltac:(lia) Wc Ic ltac:(right; left; lia)) as (c' & ok & E & Wc' & Dc & Uc' & _).
        rewrite E. cbn [fst snd].
        apply Forall_app in F. destruct F as (Fa & F). pose proof (Forall_inv_tail F) as Fb.
        eexists _, ok. split; [reflexivity|]. split.
        { apply wf_nd_inner; try lia; [rewrite !app_length in *; cbn [length] in *; lia|].
          apply Forall_app. split; [exact Fa|]. constructor; [|exact Fb].
          split; [exact Wc'|]. fold H2. lia. }
        split.
        { rewrite Ee. rewrite elems_nd, map_app. cbn [map]. rewrite flat_split by (rewrite map_length; lia).
          apply del_ok_mid; assumption. }
        cbn [nd used chs]. split; [lia|]. split; [lia|]. intros Z _.
        rewrite app_length in Z.
        destruct ca; [|cbn [length] in *; lia]. destruct cb; [|cbn [length] in *; lia].
        exists c'. split; [reflexivity|]. rewrite app_length. split; [lia|].
        intros c0 Q0. assert (c0 = c) by (cbn in Q0; congruence). subst c0. lia.
      * assert (U1 : 1 <= length (a ++ b)).
        { destruct P as [P|[P|P]]; [lia|exact P|]. exfalso. destruct P as (c0 & E0 & U0). cbn [nd chs] in E0.
          destruct ca as [|y ca]; cbn in E0; inversion E0; subst; [lia|]. destruct ca; discriminate. }
        destruct (fill_spec k Hk h key a b js ca c cb W Inc Ha Hb Lca Q U1)
          as (a' & b' & js' & ca' & d & cb' & EF & LF & WF & EE & HA & HB & UD & LA & LU & LM).
        fold H2 in UD, LM.
        cbn [btnode_delete]. cbn [nd used kvs leaf chs]. rewrite Sk. cbn [bind].
        rewrite miss_test by exact Hb. cbn [bind].
        rewrite (nth_error_mid ca c) by lia. cbn [bind]. fold H2.
        rewrite (ltb_true (used c) H2) by exact Q.
        change (mk (length (a ++ b)) false ((a ++ b) ++ js) (ca ++ c :: cb))
          with (nd false (a ++ b) js (ca ++ c :: cb)).
        rewrite EF. cbn [bind]. cbn [nd used kvs leaf chs].
        rewrite <- LA. rewrite (nth_error_mid ca' d) by lia. cbn [bind].
        assert (Inc' : increasing (elems (nd false (a' ++ b') js' (ca' ++ d :: cb')))) by (rewrite EE; exact Inc).
        destruct (wf_invS _ _ _ WF) as (ks0 & js0 & cs0 & E0 & L0 & L0' & C0 & F0).
        assert (Ecs : cs0 = ca' ++ d :: cb') by (apply (f_equal chs) in E0; exact (eq_sym E0)).
        assert (Eks : length ks0 = length (a' ++ b')) by (apply (f_equal used) in E0; exact (eq_sym E0)).
        assert (Ljs : length js0 = length js').
        { apply (f_equal kvs) in E0. cbn [nd kvs] in E0. apply (f_equal (@length kv)) in E0.
          rewrite !app_length in *. lia. }
        clear E0. rewrite Eks, Ljs in *. subst cs0. clear Eks Ljs.
        apply Forall_app in F0. destruct F0 as (Fa & F0). pose proof (Forall_inv F0) as (Wd & _).
        pose proof (Forall_inv_tail F0) as Fb.
        rewrite elems_nd, map_app in Inc'. cbn [map] in Inc'.
        rewrite flat_split in Inc' by (rewrite map_length; lia).
        apply increasing_app in Inc'. destruct Inc' as (I1 & I2 & _).
        apply increasing_app in I2. destruct I2 as (Id & I3 & _).
        destruct (IH f d key ltac:(lia) Wd Id ltac:(right; left; lia)) as (d' & ok & E & Wd' & Dd & Ud' & _).
        rewrite E. cbn [bind fst snd]. rewrite set_child_at by lia.
        change (mk (length (a' ++ b')) false ((a' ++ b') ++ js') (ca' ++ d' :: cb'))
          with (nd false (a' ++ b') js' (ca' ++ d' :: cb')).
        eexists _, ok. split; [reflexivity|]. split.
        { apply wf_nd_inner; try lia; [rewrite !app_length in *; cbn [length] in *; lia|].
          apply Forall_app. split; [exact Fa|]. constructor; [|exact Fb].
          split; [exact Wd'|]. fold H2. lia. }
        split.
        { rewrite <- EE. rewrite !elems_nd, !map_app. cbn [map].
          rewrite !flat_split by (rewrite map_length; lia).
          apply del_ok_mid; [| |exact Dd].
          - apply loc_l; [exact I1|rewrite map_length; lia|exact HA].
          - apply loc_r; [exact I3|exact HB]. }
        cbn [nd used chs]. split; [lia|]. split; [lia|]. intros Z _.
        rewrite app_length in Z. rewrite !app_length in C0. cbn [length] in C0.
        destruct ca'; [|cbn [length] in *; lia]. destruct cb'; [|cbn [length] in *; lia].
        exists d'. split; [reflexivity|]. split.
        { intros _. assert (QQ : used d = 2 * H2 - 1) by (apply LM; rewrite !app_length in *; lia). lia. }
        intros c0 Q0. destruct ca as [|y ca]; cbn in Q0; inversion Q0; subst.
        -- cbn [length] in *. rewrite app_length in U1. lia.
        -- destruct ca; discriminate.
Qed.

(** ** Histories *)
Definition root_ok (cnt : nat) (n : node) : Prop :=
  exists h, wf k h n /\ increasing (elems n) /\
    (1 <= used n \/ 0 < h /\ exists c, chs n = [c] /\ 1 <= cnt /\ 2 * H2 <= used c + cnt + 1).
Definition tree_ok (cnt : nat) (t : tree) (m : smap) : Prop :=
  order t = k /\ match root t with None => m = [] | Some n => root_ok cnt n /\ elems n <> [] end /\
  holds t m.

Lemma elems_nonempty cnt n : root_ok cnt n -> elems n <> [].
Proof.
  intros (h & W & _ & H) E. destruct hb3 as (Hh & Hh2).
  assert (G : forall h n, wf k h n -> 1 <= used n -> elems n <> []).
  { clear. intros h n W U. destruct h.
    - destruct (wf_inv0 _ _ W) as (ks & js & -> & L & L'). rewrite elems_nd. cbn [map].
      rewrite flat_nochild. cbn in U. destruct ks; [cbn in U; lia|discriminate].
    - destruct (wf_invS _ _ _ W) as (ks & js & cs & -> & L & L' & C & F).
      cbn in U. destruct ks; [cbn in U; lia|]. rewrite elems_nd. destruct cs; [discriminate|].
      cbn. intro Q. apply app_eq_nil in Q. destruct Q. discriminate. }
  destruct H as [H|(Hp & c & Ec & _)]; [exact (G _ _ W H E)|].
  destruct h as [|h]; [lia|].
  destruct (wf_invS _ _ _ W) as (ks & js & cs & -> & L & L' & C & F). cbn in Ec. subst cs.
  pose proof (Forall_inv F) as (Wc & Uc). fold H2 in Uc.
  rewrite elems_nd in E. cbn [map] in E. rewrite flat_cons in E. apply app_eq_nil in E.
  destruct E as (E & _). exact (G _ _ Wc ltac:(lia) E).
Qed.

Lemma lookup_in (m : smap) key v : lookup m key = Some v -> In (key, v) m.
Proof.
  induction m as [|[a b] m IH]; cbn; [discriminate|]. destruct (N.eqb_spec a key).
  - intro E. assert (b = v) by congruence. subst. auto.
  - auto.
Qed.
Lemma lookup_del m key key' : lookup (del m key) key' = if N.eqb key key' then None else lookup m key'.
Proof.
  induction m as [|[a b] m IH]; cbn; [destruct (N.eqb key key'); reflexivity|].
  change (filter _ m) with (del m key).
  destruct (N.eqb_spec a key); cbn [negb lookup]; rewrite IH.
  - subst a. destruct (N.eqb_spec key key'); reflexivity.
  - destruct (N.eqb_spec a key'); [|reflexivity]. destruct (N.eqb_spec key key'); [subst; contradiction|reflexivity].
Qed.
Lemma mem_in key (l : list kv) : Mem key l <-> exists v, In (key, v) l.
Proof.
  unfold Mem. rewrite in_map_iff. split.
  - intros ((a & b) & E & H). cbn in E. subst. eauto.
  - intros (v & H). exists (key, v). auto.
Qed.
Lemma ins_holds l l' m x : increasing l -> Ins x l l' ->
  (forall key v, In (key, v) l <-> lookup m key = Some v) ->
  increasing l' /\ (forall key v, In (key, v) l' <-> lookup (x :: m) key = Some v).
Proof.
  intros Inc (l1 & l2 & -> & -> & H1 & H2') H. split.
  - apply increasing_app in Inc. destruct Inc as (I1 & I2 & I3).
    apply increasing_app. split; [exact I1|]. split.
    + split; [exact H2'|exact I2].
    + intros y z Hy [<-|Hz]; [|auto]. unfold ltk in H1. rewrite Forall_forall in H1. apply H1. exact Hy.
  - intros key v. destruct x as [a b]. cbn [lookup]. cbn [fst] in *.
    assert (E : In (key, v) (l1 ++ (a, b) :: l2) <-> (a, b) = (key, v) \/ In (key, v) (l1 ++ l2)).
    { rewrite !in_app_iff. cbn [In]. tauto. }
    rewrite E, H. destruct (N.eqb_spec a key) as [->|Q].
    + split; [intros [Q|Q]; [congruence|]|intro Q; left; congruence].
      exfalso. apply H in Q. apply (not_mem key l1 l2 H1 H2'). apply mem_in. eauto.
    + split; [intros [Q'|Q']; [congruence|exact Q']|tauto].
Qed.
Lemma del_holds l l' m key : increasing l -> del_ok key l l' true ->
  (forall k0 v, In (k0, v) l <-> lookup m k0 = Some v) ->
  increasing l' /\ (forall k0 v, In (k0, v) l' <-> lookup (del m key) k0 = Some v) /\
  exists v, lookup m key = Some v.
Proof.
  intros Inc (l1 & v & l2 & -> & ->) H. apply increasing_app in Inc. destruct Inc as (I1 & I2 & I3).
  cbn in I2. destruct I2 as (I4 & I2). split; [|split].
  - apply increasing_app. split; [exact I1|]. split; [exact I2|].
    intros x y Hx Hy. apply I3; [exact Hx|right; exact Hy].
  - intros k0 w. rewrite lookup_del. destruct (N.eqb_spec key k0) as [<-|Q].
    + split; [|discriminate]. intro Hin. exfalso. apply in_app_or in Hin. destruct Hin as [Hin|Hin].
      * specialize (I3 _ _ Hin (or_introl eq_refl)). cbn in I3. lia.
      * rewrite Forall_forall in I4. specialize (I4 _ Hin). cbn in I4. lia.
    + rewrite <- H, !in_app_iff. cbn [In]. split; [tauto|]. intros [Hi|[Hi|Hi]]; [tauto|congruence|tauto].
  - exists v. apply H. apply in_or_app. right. left. reflexivity.
Qed.
Lemma absent_lookup l (m : smap) key :
  (forall k0 v, In (k0, v) l <-> lookup m k0 = Some v) -> (~ Mem key l <-> lookup m key = None).
Proof.
  intro H. rewrite mem_in. split.
  - intro Q. destruct (lookup m key) as [v|] eqn:E; [|reflexivity]. exfalso. apply Q. exists v. apply H. exact E.
  - intros E (v & Hv). apply H in Hv. congruence.
Qed.

Lemma insert_step cnt t m key val :
  tree_ok cnt t m ->
  exists t', btree_insert t key val = Some (t', snd (spec_insert m key val)) /\
    tree_ok cnt t' (fst (spec_insert m key val)).
Proof.
  intros (Ho & Hr & Hinc & Hin). destruct hb3 as (Hh & Hh2).
  unfold btree_insert, spec_insert. destruct (N.eqb_spec val 0) as [Z|Z].
  { exists t. split; [reflexivity|]. split; [exact Ho|]. split; [exact Hr|]. split; assumption. }
  rewrite Ho.
  set (rt := match root t with Some n => n | None => btnode_create k end).
  assert (R : exists h, wf k h rt /\ increasing (elems rt) /\ elems rt = contents t /\
            (1 <= used rt \/ h = 0 \/ 0 < h /\ exists c, chs rt = [c] /\ 1 <= cnt /\ 2 * H2 <= used c + cnt + 1)).
  { unfold rt, contents in *. destruct (root t) as [n|] eqn:Er.
    - destruct Hr as ((h & W & I & D) & _). exists h. tauto.
    - exists 0. unfold btnode_create.
      change (mk 0 true (repeat (0, 0)%N k) []) with (nd true [] (repeat (0, 0)%N k) []).
      split; [apply wf_nd_leaf; rewrite ?repeat_length; cbn [length]; lia|].
      split; [exact I|]. split; [reflexivity|]. auto. }
  destruct R as (h & W & I & Ec & D).
  rewrite (wf_depth _ _ _ W).
  destruct (btnode_insert_spec k h Hk (S h) rt (key, val) ltac:(lia) W I) as (S1 & S2). cbn [fst] in *.
  rewrite Ec in *.
  pose proof (absent_lookup _ _ key Hin) as Ha.
  destruct (lookup m key) as [v0|] eqn:El.
  - assert (M : Mem key (contents t)).
    { apply mem_in. exists v0. apply Hin. exact El. }
    rewrite (S1 M). cbn [bind fst snd]. unfold contents in M. unfold rt in *.
    destruct (root t) as [n|] eqn:Er; [|contradiction M].
    eexists. split; [reflexivity|]. split; [reflexivity|]. split; [exact Hr|].
    unfold contents in *. cbn [root]. rewrite Er in *. split; assumption.
  - destruct (S2 (proj2 Ha eq_refl)) as (n' & r & L & E & HI & HS & HU & HD). rewrite E. cbn [bind].
    destruct (ins_holds _ _ m (key, val) Hinc HI Hin) as (Hinc' & Hin').
    assert (NE : L <> []).
    { destruct HI as (l1 & l2 & _ & -> & _). intro Q. apply app_eq_nil in Q. destruct Q. discriminate. }
    cbn [fst snd]. destruct r as [[md rg]|].
    + cbn [splits] in HS. destruct HS as (W1 & W2 & U1 & U2 & EL). fold H2 in U1, U2.
      assert (X : exists ks js, kvs n' = ks ++ js /\ length ks = used n' /\ 1 <= length js /\
                    length ks + length js = k).
      { destruct h.
        - destruct (wf_inv0 _ _ W1) as (ks & js & -> & L0 & L0'). exists ks, js. cbn. repeat split; lia.
        - destruct (wf_invS _ _ _ W1) as (ks & js & cs & -> & L0 & L0' & _). exists ks, js. cbn. repeat split; lia. }
      destruct X as (ks & js & Ek & Lk & Lj & Lkj).
      destruct (arr_cat (@nil kv) (repeat (0, 0)%N k) [] ks js 0 0 (length ks)) as (js' & EC & LJ);
        try reflexivity; [rewrite repeat_length; lia|]. rewrite repeat_length in LJ. cbn [app] in EC.
      unfold btnode_create. cbn [kvs]. rewrite Ek, <- Lk, EC. cbn [bind].
      assert (Y : exists z zs, ks ++ js = z :: zs /\ length zs = k - 1).
      { destruct (ks ++ js) as [|z zs] eqn:Ez.
        - apply app_eq_nil in Ez. destruct Ez; subst. cbn in *. lia.
        - exists z, zs. split; [reflexivity|]. apply (f_equal (@length kv)) in Ez.
          rewrite app_length in Ez. cbn [length] in Ez. lia. }
      destruct Y as (z & zs & Ez & Lz). rewrite Ez.
      pose proof (aset_mid [] z zs md 0 eq_refl) as Ea. cbn [app] in Ea. rewrite Ea. cbn [bind].
      change (md :: zs) with ([md] ++ zs).
      change (mk 1 false ([md] ++ zs) [mk (length ks) (leaf n') (ks ++ js') (chs n'); rg])
        with (nd false [md] zs [nd (leaf n') ks js' (chs n'); rg]).
      assert (Wl : wf k h (nd (leaf n') ks js' (chs n')) /\ elems (nd (leaf n') ks js' (chs n')) = elems n').
      { destruct n' as [u lf kk cc]. cbn [leaf chs used kvs] in *. subst u kk. 
        change (mk (length ks) lf (ks ++ js) cc) with (nd lf ks js cc) in *.
        rewrite !elems_nd. split; [|reflexivity].
        destruct h.
        - destruct (wf_inv0 _ _ W1) as (ks0 & js0 & E0 & L0 & L0').
          assert (lf = true) by (apply (f_equal leaf) in E0; exact E0).
          assert (cc = []) by (apply (f_equal chs) in E0; exact E0).
          subst. apply wf_nd_leaf; lia.
        - destruct (wf_invS _ _ _ W1) as (ks0 & js0 & cs0 & E0 & L0 & L0' & C0 & F0).
          assert (lf = false) by (apply (f_equal leaf) in E0; exact E0).
          assert (cc = cs0) by (apply (f_equal chs) in E0; exact E0).
          assert (length ks0 = length ks) by (apply (f_equal used) in E0; exact (eq_sym E0)).
          subst. apply wf_nd_inner; try lia. exact F0. }
      destruct Wl as (Wl & Ell).
      eexists. split; [reflexivity|].
      assert (EE : elems (nd false [md] zs [nd (leaf n') ks js' (chs n'); rg]) = L).
      { rewrite elems_nd. cbn [map flat]. rewrite Ell, app_nil_r. exact EL. }
      split; [reflexivity|]. cbn [root contents]. unfold holds. cbn [contents root]. rewrite EE.
      split; [|split; assumption]. split; [|exact NE].
      exists (S h). split.
      { apply wf_nd_inner; cbn [length]; try lia. constructor; [|constructor; [|constructor]].
        - split; [exact Wl|]. cbn [nd used]. fold H2. lia.
        - split; [exact W2|]. fold H2. lia. }
      rewrite EE. split; [exact Hinc'|]. left. cbn. lia.
    + cbn [splits] in HS. destruct HS as (W1 & EL). specialize (HU eq_refl). destruct HU as (HU & HU').
      specialize (HD eq_refl).
      eexists. split; [reflexivity|]. split; [reflexivity|]. unfold holds. cbn [root contents]. rewrite EL.
      split; [|split; assumption]. split; [|exact NE].
      exists h. split; [exact W1|]. rewrite EL. split; [exact Hinc'|].
      destruct D as [D|[D|(Hp & c & Ecc & D1 & D2)]]; [left; lia|left; lia|].
      destruct (Nat.eq_dec (used n') 0) as [Z0|Z0]; [|left; lia].
      right. split; [exact Hp|]. destruct (HD c) as (c1 & Ec1 & Uc1); [rewrite Ecc; reflexivity|exact Z0|].
      exists c1. split; [|lia].
      destruct h as [|h]; [lia|]. destruct (wf_invS _ _ _ W1) as (ks & js & cs & -> & _ & _ & C & _).
      cbn [nd used chs] in *. rewrite Z0 in C. destruct cs as [|c2 [|? ?]]; cbn in C; try lia.
      cbn in Ec1. congruence.
Qed.

Lemma remove_step cnt t m key :
  tree_ok cnt t m -> cnt <= H2 - 1 ->
  exists t', btree_remove t key = Some (t', snd (spec_remove m key)) /\
    tree_ok (if snd (spec_remove m key) then 0 else S cnt) t' (fst (spec_remove m key)).
Proof.
  intros (Ho & Hr & Hinc & Hin) Hc. destruct hb3 as (Hh & Hh2).
  unfold btree_remove. destruct (root t) as [n|] eqn:Er.
  2:{ subst m. cbn [spec_remove fst snd]. exists t. split; [reflexivity|]. split; [exact Ho|]. rewrite Er.
      split; [reflexivity|]. split; assumption. }
  destruct Hr as ((h & W & I & D) & NE). rewrite (wf_depth _ _ _ W), Ho.
  assert (Hm : m <> []).
  { intros ->. destruct (elems n) as [|[a b] l] eqn:Ee; [exact (NE eq_refl)|].
    unfold contents in Hin. rewrite Er, Ee in Hin. specialize (Hin a b). cbn in Hin.
    destruct Hin as (Hin & _). specialize (Hin (or_introl eq_refl)). discriminate. }
  assert (Ec : contents t = elems n) by (unfold contents; rewrite Er; reflexivity).
  rewrite Ec in *.
  destruct (btnode_delete_spec h (2 * S h) n key ltac:(lia) W I) as (n' & ok & E & Wn & Dn & Un & U0 & UD).
  { destruct D as [D|(_ & c & Ecc & D1 & D2)]; [right; left; exact D|]. right. right. exists c.
    split; [exact Ecc|]. lia. }
  rewrite E. cbn [bind].
  assert (Es : spec_remove m key = match lookup m key with Some _ => (del m key, true) | None => (m, false) end)
    by (unfold spec_remove; destruct m; [contradiction|reflexivity]).
  rewrite Es. destruct ok; cbn [negb].
  - destruct (del_holds _ _ m key I Dn Hin) as (I' & Hin' & v & Ev). rewrite Ev. cbn [fst snd].
    destruct (Nat.eqb_spec (used n') 0) as [Z|Z].
    + destruct h as [|h].
      * destruct (wf_inv0 _ _ Wn) as (ks & js & -> & L & L'). cbn [nd leaf used] in *.
        eexists. split; [reflexivity|].
        rewrite elems_nd in *. cbn [map] in *. rewrite flat_nochild in *.
        assert (ks = []) by (destruct ks; [reflexivity|cbn in Z; lia]). subst ks.
        assert (Q : del m key = []).
        { destruct (del m key) as [|[a b] q] eqn:Eq; [reflexivity|]. exfalso.
          specialize (Hin' a b). cbn in Hin'. rewrite N.eqb_refl in Hin'. apply Hin'. reflexivity. }
        rewrite Q in *. split; [reflexivity|]. cbn [root]. split; [reflexivity|].
        split; [exact I'|]. exact Hin'.
      * destruct (wf_invS _ _ _ Wn) as (ks & js & cs & -> & L & L' & C & F). cbn [nd leaf used chs] in *.
        rewrite Z in C. destruct cs as [|c [|? ?]]; cbn in C; try lia. cbn [nth_error bind].
        assert (ks = []) by (destruct ks; [reflexivity|cbn in Z; lia]). subst ks.
        rewrite elems_nd in *. cbn [map flat] in *. rewrite app_nil_r in *.
        pose proof (Forall_inv F) as (Wc & Uc). fold H2 in Uc.
        assert (RO : root_ok 0 c).
        { exists h. split; [exact Wc|]. split; [exact I'|]. left. lia. }
        eexists. split; [reflexivity|]. split; [reflexivity|]. cbn [root].
        split; [split; [exact RO|exact (elems_nonempty _ _ RO)]|]. split; assumption.
    + assert (RO : root_ok 0 n').
      { exists h. split; [exact Wn|]. split; [exact I'|]. left. lia. }
      eexists. split; [reflexivity|]. split; [reflexivity|]. cbn [root].
      split; [split; [exact RO|exact (elems_nonempty _ _ RO)]|]. split; assumption.
  - destruct Dn as (El & Dn). apply (absent_lookup _ _ key Hin) in Dn. rewrite Dn. cbn [fst snd].
    eexists. split; [reflexivity|]. split; [reflexivity|]. unfold holds. cbn [root contents].
    rewrite El. split; [|split; assumption]. split; [|exact NE].
    exists h. split; [exact Wn|]. rewrite El. split; [exact I|].
    destruct (Nat.eq_dec (used n') 0) as [Z|Z]; [|left; lia]. right.
    destruct h as [|h].
    { specialize (U0 eq_refl eq_refl). destruct D as [D|(Q & _)]; lia. }
    split; [lia|]. destruct (UD Z ltac:(lia)) as (c' & Ec' & UD1 & UD2). exists c'. split; [exact Ec'|].
    destruct D as [D|(_ & c & Ecc & D1 & D2)].
    + specialize (UD1 D). lia.
    + specialize (UD2 _ Ecc). lia.
Qed.

Theorem tree_run_spec ops : forall cnt t m,
  tree_ok cnt t m -> few_absent (H2 - 1) cnt m ops ->
  exists t' cnt', tree_run t ops = Some (t', snd (spec_run m ops)) /\ tree_ok cnt' t' (fst (spec_run m ops)).
Proof.
  induction ops as [|o ops IH]; intros cnt t m Ht Hf.
  - exists t, cnt. split; [reflexivity|exact Ht].
  - cbn [tree_run few_absent spec_run] in *. destruct o as [key val|key].
    + cbn [spec_step tree_step] in *. destruct (insert_step cnt t m key val Ht) as (t1 & E & Ht1).
      rewrite E. destruct (spec_insert m key val) as [m1 b1]. cbn [fst snd] in *.
      destruct (IH cnt t1 m1 Ht1 Hf) as (t2 & cnt2 & E2 & Ht2). rewrite E2.
      destruct (spec_run m1 ops) as [m2 bs]. exists t2, cnt2. split; [reflexivity|exact Ht2].
    + cbn [spec_step tree_step] in *.
      destruct (spec_remove m key) as [m1 b1] eqn:Es. destruct Hf as (Hc & Hf).
      destruct (remove_step cnt t m key Ht Hc) as (t1 & E & Ht1).
      rewrite E. rewrite Es in *. cbn [fst snd] in *.
      destruct (IH _ t1 m1 Ht1 Hf) as (t2 & cnt2 & E2 & Ht2). rewrite E2.
      destruct (spec_run m1 ops) as [m2 bs]. exists t2, cnt2. split; [reflexivity|exact Ht2].
Qed.

Lemma create_ok : tree_ok 0 (btree_create k) [].
Proof.
  split; [reflexivity|]. split; [reflexivity|]. split; [exact I|]. intros. cbn. split; [intros []|discriminate].
Qed.
End K.
