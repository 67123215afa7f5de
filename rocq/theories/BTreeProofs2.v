(** Proofs about the B-tree: removal. *)
From Coq Require Import List Arith NArith Bool Lia.
From Coq Require Import ZifyBool ZifyNat ZifyN.
From Verif Require Import BTreeModel BTreeSpec BTreeProofs.
Import ListNotations.
Open Scope nat_scope.

Lemma nd_eq u lf ks js cs : u = length ks -> mk u lf (ks ++ js) cs = nd lf ks js cs.
Proof. intros ->. reflexivity. Qed.
Lemma wf_nd_leaf k ks js : length ks + length js = k -> length ks < k -> wf k 0 (nd true ks js []).
Proof. intros. constructor; assumption. Qed.
Lemma wf_nd_inner k h ks js cs : length ks + length js = k -> length ks < k ->
  length cs = S (length ks) -> Forall (fun c => wf k h c /\ k / 2 - 1 <= used c) cs ->
  wf k (S h) (nd false ks js cs).
Proof. intros. constructor; assumption. Qed.
Lemma flat_snoc ks l es e :
  length es = S (length ks) -> flat (ks ++ [l]) (es ++ [e]) = flat ks es ++ l :: e.
Proof.
  revert es. induction ks as [|x ks IH]; intros es L; (destruct es as [|y es]; [cbn in L; lia|]).
  - destruct es; [|cbn in L; lia]. cbn. rewrite !app_nil_r. reflexivity.
  - cbn [app flat]. cbn [length] in L. rewrite IH by lia. rewrite <- app_assoc. reflexivity.
Qed.
Lemma flat_join k1 s k2 e1 e2 :
  length e1 = S (length k1) -> flat (k1 ++ s :: k2) (e1 ++ e2) = flat k1 e1 ++ s :: flat k2 e2.
Proof.
  revert e1. induction k1 as [|x ks IH]; intros es L; (destruct es as [|y es]; [cbn in L; lia|]).
  - destruct es; [|cbn in L; lia]. cbn. rewrite app_nil_r. reflexivity.
  - cbn [app flat]. cbn [length] in L. rewrite IH by lia. rewrite <- app_assoc. reflexivity.
Qed.
Lemma flat_cons ks e es : flat ks (e :: es) = e ++ flatR ks es.
Proof. destruct ks; reflexivity. Qed.
Lemma skipn2 {A} (ca : list A) x y cb n :
  n = length ca -> skipn (n + 2) (ca ++ x :: y :: cb) = cb.
Proof.
  intros ->. rewrite (app_cons_assoc ca x), (app_cons_assoc (ca ++ [x]) y). apply skipn_app_l.
  rewrite !app_length. cbn [length]; lia.
Qed.
Lemma nth_error_mid1 {A} (a : list A) x y b n :
  n = length a -> nth_error (a ++ x :: y :: b) (n + 1) = Some y.
Proof.
  intros ->. rewrite (app_cons_assoc a x). apply nth_error_mid. rewrite app_length. reflexivity.
Qed.

Section K.
Variable k : nat.
Hypothesis Hk : 4 <= k.
Let H2 := k / 2.

Lemma hb : 2 <= H2 /\ 2 * H2 <= k.
Proof. exact (half k Hk). Qed.

Lemma merge_spec h a s b js ca c1 c2 cb i :
  i = length a -> length ca = length a -> wf k h c1 -> wf k h c2 ->
  used c1 = H2 - 1 -> used c2 = H2 - 1 -> length (a ++ s :: b) < k ->
  exists d js', merge k (nd false (a ++ s :: b) js (ca ++ c1 :: c2 :: cb)) i =
      Some (nd false (a ++ b) js' (ca ++ d :: cb)) /\ length js' = S (length js) /\
    wf k h d /\ used d = 2 * H2 - 1 /\ elems d = elems c1 ++ s :: elems c2.
Proof.
  intros -> Lca W1 W2 U1 U2 Lk. destruct hb as (Hh & Hh2).
  unfold merge. cbn [nd chs kvs used leaf].
  rewrite nth_error_mid by lia. cbn [bind]. rewrite nth_error_mid1 by lia. cbn [bind].
  rewrite <- app_assoc. cbn [app]. rewrite nth_error_mid by lia. cbn [bind].
  unfold guard at 1. fold H2. rewrite (leb_true 1 H2) by lia.
  rewrite app_cons_assoc. rewrite app_length in Lk. cbn [length] in Lk.
  assert (M : exists js', amove (((a ++ [s]) ++ b ++ js)) (length a) (length a + 1)
                 (length (a ++ s :: b) - length a - 1) = Some ((a ++ b) ++ js') /\ length js' = S (length js)).
  { destruct (arr_del a s b js (length a) (length b) eq_refl eq_refl) as (js' & E & L).
    exists js'. split; [|exact L]. rewrite <- E. f_equal.
    - rewrite <- !app_assoc. reflexivity.
    - rewrite app_length. cbn [length]. lia. }
  destruct M as (js' & EM & LM).
  destruct h as [|h].
  - destruct (wf_inv0 _ _ W1) as (k1 & j1 & -> & L1 & L1').
    destruct (wf_inv0 _ _ W2) as (k2 & j2 & -> & L2 & L2').
    cbn [nd used] in U1, U2. cbn [nd chs kvs used leaf].
    destruct j1 as [|z j1]; [cbn [length] in L1; lia|]. cbn [length] in L1.
    rewrite aset_mid by lia. cbn [bind].
    destruct (arr_cat (k1 ++ [s]) j1 [] k2 j2 H2 0 (length k2)) as (j' & E & L).
    { rewrite app_length. cbn [length]. lia. } { reflexivity. } { reflexivity. } { lia. }
    cbn [app] in E. rewrite app_cons_assoc, E. cbn [bind].
    rewrite EM. cbn [bind]. unfold guard. rewrite leb_true by (rewrite app_length; cbn [length]; lia).
    rewrite firstn_app_l by lia. rewrite skipn2 by lia.
    rewrite (nd_eq _ true) by (rewrite !app_length; cbn [length]; lia).
    rewrite (nd_eq _ false) by (rewrite !app_length; cbn [length]; lia).
    exists (nd true ((k1 ++ [s]) ++ k2) j' []), js'. split; [reflexivity|]. split; [exact LM|].
    split; [|split].
    + apply wf_nd_leaf; rewrite !app_length; cbn [length]; lia.
    + cbn [nd used]. rewrite !app_length; cbn [length]; lia.
    + rewrite !elems_nd. cbn [map]. rewrite !flat_nochild, <- app_assoc. reflexivity.
  - destruct (wf_invS _ _ _ W1) as (k1 & j1 & cs1 & -> & L1 & L1' & C1 & F1).
    destruct (wf_invS _ _ _ W2) as (k2 & j2 & cs2 & -> & L2 & L2' & C2 & F2).
    cbn [nd used] in U1, U2. cbn [nd chs kvs used leaf].
    destruct j1 as [|z j1]; [cbn [length] in L1; lia|]. cbn [length] in L1.
    rewrite aset_mid by lia. cbn [bind].
    destruct (arr_cat (k1 ++ [s]) j1 [] k2 j2 H2 0 (length k2)) as (j' & E & L).
    { rewrite app_length. cbn [length]. lia. } { reflexivity. } { reflexivity. } { lia. }
    cbn [app] in E. rewrite app_cons_assoc, E. cbn [bind].
    unfold guard at 1.
    rewrite (leb_true (H2 + (length k2 + 1)) (k + 1)) by lia.
    rewrite (leb_true H2 (length cs1)) by lia. rewrite (leb_true (length k2 + 1) (length cs2)) by lia.
    cbn [andb bind].
    rewrite EM. cbn [bind]. unfold guard. rewrite leb_true by (rewrite app_length; cbn [length]; lia).
    rewrite (firstn_app_l ca) by lia. rewrite skipn2 by lia.
    rewrite (firstn_all2 cs1) by lia. rewrite (firstn_all2 cs2) by lia.
    rewrite (nd_eq _ false ((k1 ++ [s]) ++ k2)) by (rewrite !app_length; cbn [length]; lia).
    rewrite (nd_eq _ false (a ++ b)) by (rewrite !app_length; cbn [length]; lia).
    exists (nd false ((k1 ++ [s]) ++ k2) j' (cs1 ++ cs2)), js'.
    split; [reflexivity|]. split; [exact LM|].
    split; [|split].
    + apply wf_nd_inner; try (rewrite !app_length; cbn [length]; lia). apply Forall_app. split; assumption.
    + cbn [nd used]. rewrite !app_length; cbn [length]; lia.
    + rewrite !elems_nd. rewrite <- app_assoc. cbn [app]. rewrite map_app.
      apply flat_join. rewrite map_length. exact C1.
Qed.

Lemma feed_prev_spec h a s b js ca p c cb i :
  i = length a + 1 -> length ca = length a -> wf k h p -> wf k h c ->
  used c = H2 - 1 -> H2 <= used p ->
  exists l p' c', feed_prev k (nd false (a ++ s :: b) js (ca ++ p :: c :: cb)) i p c =
      Some (nd false (a ++ l :: b) js (ca ++ p' :: c' :: cb)) /\
    wf k h p' /\ wf k h c' /\ used p' = used p - 1 /\ used c' = used c + 1 /\
    In l (elems p) /\ elems p' ++ l :: elems c' = elems p ++ s :: elems c.
Proof.
  intros -> Lca Wp Wc Uc Up. destruct hb as (Hh & Hh2).
  unfold feed_prev. cbn [nd chs kvs used leaf]. replace (length a + 1 - 1) with (length a) by lia.
  rewrite (firstn_app_l ca) by lia. replace (length a + 1 + 1) with (length a + 2) by lia.
  rewrite skipn2 by lia. rewrite <- app_assoc. cbn [app].
  rewrite (nth_error_mid a s) by lia.
  destruct h as [|h].
  - destruct (wf_inv0 _ _ Wp) as (k1 & j1 & -> & L1 & L1').
    destruct (wf_inv0 _ _ Wc) as (k2 & j2 & -> & L2 & L2').
    cbn [nd used] in *. cbn [nd chs kvs used leaf].
    destruct j2 as [|z j2]; [cbn [length] in L2; lia|]. cbn [length] in L2.
    destruct (arr_ins [] k2 z j2 s 0 (length k2) eq_refl eq_refl) as (l0 & E1 & E2).
    cbn [app Nat.add] in E1, E2. rewrite E1. cbn [bind]. rewrite E2. cbn [bind].
    unfold guard. rewrite (leb_true 1 (length k1)) by lia.
    destruct (list_snoc k1) as (k1' & l & ->); [destruct k1; [cbn [length] in Up; lia|discriminate]|].
    rewrite app_length in *. cbn [length] in *.
    rewrite <- app_assoc. cbn [app]. rewrite (nth_error_mid k1' l) by lia. cbn [bind].
    rewrite aset_mid by reflexivity. cbn [bind].
    rewrite (nd_eq (length k1' + 1 - 1)) by lia.
    change (s :: k2 ++ j2) with ((s :: k2) ++ j2). rewrite (nd_eq (length k2 + 1)) by (cbn [length]; lia).
    change (l :: b ++ js) with ((l :: b) ++ js).
    rewrite app_assoc, nd_eq by (rewrite !app_length; reflexivity).
    exists l, (nd true k1' (l :: j1) []), (nd true (s :: k2) j2 []). split; [reflexivity|].
    rewrite !elems_nd. cbn [map]. rewrite !flat_nochild. cbn [nd used length].
    split; [apply wf_nd_leaf; cbn [length]; lia|].
    split; [apply wf_nd_leaf; cbn [length]; lia|].
    split; [lia|]. split; [lia|]. split; [apply in_or_app; right; left; reflexivity|].
    rewrite <- app_assoc. reflexivity.
  - destruct (wf_invS _ _ _ Wp) as (k1 & j1 & cs1 & -> & L1 & L1' & C1 & F1).
    destruct (wf_invS _ _ _ Wc) as (k2 & j2 & cs2 & -> & L2 & L2' & C2 & F2).
    cbn [nd used] in *. cbn [nd chs kvs used leaf].
    destruct j2 as [|z j2]; [cbn [length] in L2; lia|]. cbn [length] in L2.
    destruct (arr_ins [] k2 z j2 s 0 (length k2) eq_refl eq_refl) as (l0 & E1 & E2).
    cbn [app Nat.add] in E1, E2. rewrite E1. cbn [bind]. rewrite E2. cbn [bind].
    unfold guard at 1. rewrite leb_true by lia.
    destruct (list_snoc cs1) as (cs1' & e & ->); [destruct cs1; [cbn [length] in C1; lia|discriminate]|].
    rewrite app_length in C1. cbn [length] in C1.
    rewrite (nth_error_mid cs1' e) by lia. cbn [bind].
    unfold guard. rewrite (leb_true 1 (length k1)) by lia.
    destruct (list_snoc k1) as (k1' & l & ->); [destruct k1; [cbn [length] in Up; lia|discriminate]|].
    rewrite app_length in *. cbn [length] in *.
    rewrite <- app_assoc. cbn [app]. rewrite (nth_error_mid k1' l) by lia. cbn [bind].
    rewrite aset_mid by reflexivity. cbn [bind].
    rewrite (firstn_app_l cs1') by lia.
    rewrite (nd_eq (length k1' + 1 - 1)) by lia.
    change (s :: k2 ++ j2) with ((s :: k2) ++ j2). rewrite (nd_eq (length k2 + 1)) by (cbn [length]; lia).
    change (l :: b ++ js) with ((l :: b) ++ js).
    rewrite app_assoc, nd_eq by (rewrite !app_length; reflexivity).
    apply Forall_app in F1. destruct F1 as (F1 & Fe). pose proof (Forall_inv Fe) as Fe'. cbn beta in Fe'.
    exists l, (nd false k1' (l :: j1) cs1'), (nd false (s :: k2) j2 (e :: cs2)). split; [reflexivity|].
    rewrite !elems_nd. cbn [nd used length].
    split; [apply wf_nd_inner; cbn [length]; try lia; exact F1|].
    split; [apply wf_nd_inner; cbn [length]; try lia; constructor; assumption|].
    split; [lia|]. split; [lia|]. rewrite map_app. cbn [map].
    rewrite flat_snoc by (rewrite map_length; lia).
    split; [apply in_or_app; right; left; reflexivity|].
    cbn [flat]. rewrite <- app_assoc. reflexivity.
Qed.

Lemma feed_next_spec h a s b js ca c n cb i :
  i = length a -> length ca = length a -> wf k h c -> wf k h n ->
  used c = H2 - 1 -> H2 <= used n ->
  exists l c' n', feed_next k (nd false (a ++ s :: b) js (ca ++ c :: n :: cb)) i c n =
      Some (nd false (a ++ l :: b) js (ca ++ c' :: n' :: cb)) /\
    wf k h c' /\ wf k h n' /\ used n' = used n - 1 /\ used c' = used c + 1 /\
    In l (elems n) /\ elems c' ++ l :: elems n' = elems c ++ s :: elems n.
Proof.
  intros -> Lca Wc Wn Uc Un. destruct hb as (Hh & Hh2).
  unfold feed_next. cbn [nd chs kvs used leaf].
  rewrite (firstn_app_l ca) by lia.
  rewrite skipn2 by lia. rewrite <- app_assoc. cbn [app].
  rewrite (nth_error_mid a s) by lia. cbn [bind].
  destruct h as [|h].
  - destruct (wf_inv0 _ _ Wn) as (k1 & j1 & -> & L1 & L1').
    destruct (wf_inv0 _ _ Wc) as (k2 & j2 & -> & L2 & L2').
    cbn [nd used] in *. cbn [nd chs kvs used leaf].
    destruct j2 as [|z j2]; [cbn [length] in L2; lia|]. cbn [length] in L2.
    rewrite (aset_mid k2 z) by reflexivity. cbn [bind].
    destruct k1 as [|l k1]; [cbn [length] in Un; lia|]. cbn [length] in *. cbn [app nth_error bind].
    rewrite aset_mid by reflexivity. cbn [bind].
    destruct (arr_pop l k1 j1 (S (length k1)) eq_refl) as (j1' & E & L).
    { destruct j1; [cbn [length] in L1; lia|discriminate]. }
    cbn [app] in E. rewrite E. cbn [bind]. unfold guard. rewrite leb_true by lia.
    rewrite (nd_eq (S (length k1) - 1)) by lia.
    rewrite (app_cons_assoc k2 s), (nd_eq (length k2 + 1)) by (rewrite app_length; reflexivity).
    change (l :: b ++ js) with ((l :: b) ++ js).
    rewrite (app_assoc a), nd_eq by (rewrite !app_length; reflexivity).
    exists l, (nd true (k2 ++ [s]) j2 []), (nd true k1 j1' []). split; [reflexivity|].
    rewrite !elems_nd. cbn [map]. rewrite !flat_nochild. cbn [nd used length].
    split; [apply wf_nd_leaf; rewrite ?app_length; cbn [length]; lia|].
    split; [apply wf_nd_leaf; cbn [length]; lia|].
    rewrite app_length. cbn [length].
    split; [lia|]. split; [lia|]. split; [left; reflexivity|].
    rewrite <- app_assoc. reflexivity.
  - destruct (wf_invS _ _ _ Wn) as (k1 & j1 & cs1 & -> & L1 & L1' & C1 & F1).
    destruct (wf_invS _ _ _ Wc) as (k2 & j2 & cs2 & -> & L2 & L2' & C2 & F2).
    cbn [nd used] in *. cbn [nd chs kvs used leaf].
    destruct j2 as [|z j2]; [cbn [length] in L2; lia|]. cbn [length] in L2.
    rewrite (aset_mid k2 z) by reflexivity. cbn [bind].
    unfold guard at 1. rewrite ltb_true by lia.
    destruct cs1 as [|e cs1]; [cbn [length] in C1; lia|]. cbn [length] in C1.
    cbn [nth_error bind].
    destruct k1 as [|l k1]; [cbn [length] in Un; lia|]. cbn [length] in *. cbn [app nth_error bind].
    rewrite aset_mid by reflexivity. cbn [bind].
    destruct (arr_pop l k1 j1 (S (length k1)) eq_refl) as (j1' & E & L).
    { destruct j1; [cbn [length] in L1; lia|discriminate]. }
    cbn [app] in E. rewrite E. cbn [bind]. unfold guard. rewrite leb_true by lia.
    cbn [skipn]. rewrite (firstn_all2 cs2) by lia.
    rewrite (nd_eq (S (length k1) - 1)) by lia.
    rewrite (app_cons_assoc k2 s), (nd_eq (length k2 + 1)) by (rewrite app_length; reflexivity).
    change (l :: b ++ js) with ((l :: b) ++ js).
    rewrite (app_assoc a), nd_eq by (rewrite !app_length; reflexivity).
    exists l, (nd false (k2 ++ [s]) j2 (cs2 ++ [e])), (nd false k1 j1' cs1). split; [reflexivity|].
    rewrite !elems_nd. cbn [nd used length].
    split; [apply wf_nd_inner; rewrite ?app_length; cbn [length]; try lia; apply Forall_app; split;
            [assumption|constructor; [exact (Forall_inv F1)|constructor]]|].
    split; [apply wf_nd_inner; cbn [length]; try lia; exact (Forall_inv_tail F1)|].
    rewrite app_length. cbn [length].
    split; [lia|]. split; [lia|]. rewrite map_app. cbn [map]. cbn [flat].
    rewrite flat_snoc by (rewrite map_length; lia).
    split; [apply in_or_app; right; left; reflexivity|].
    rewrite <- !app_assoc. reflexivity.
Qed.

Lemma fill_spec h key a b js ca c cb :
  wf k (S h) (nd false (a ++ b) js (ca ++ c :: cb)) ->
  increasing (elems (nd false (a ++ b) js (ca ++ c :: cb))) ->
  ltk key a -> gtk key b -> length ca = length a -> used c < H2 -> 1 <= length (a ++ b) ->
  exists a' b' js' ca' d cb',
    fill k (nd false (a ++ b) js (ca ++ c :: cb)) (length a) =
      Some (nd false (a' ++ b') js' (ca' ++ d :: cb')) /\
    length ca' = length a' /\ wf k (S h) (nd false (a' ++ b') js' (ca' ++ d :: cb')) /\
    elems (nd false (a' ++ b') js' (ca' ++ d :: cb')) =
      elems (nd false (a ++ b) js (ca ++ c :: cb)) /\
    ltk key a' /\ gtk key b' /\ H2 <= used d /\
    length a' = (if (length a =? length (a ++ b)) && (length (a' ++ b') <? length a)
                 then length a - 1 else length a) /\
    length (a ++ b) - 1 <= length (a' ++ b') /\
    (length (a' ++ b') < length (a ++ b) -> used d = 2 * H2 - 1).
Proof.
  intros W Inc Ha Hb Lca Uc Lu. destruct hb as (Hh & Hh2).
  destruct (wf_invS _ _ _ W) as (ks0 & js0 & cs0 & E0 & L0 & L0' & C0 & F0).
  assert (Lks : length ks0 = length (a ++ b)) by (apply (f_equal used) in E0; exact (eq_sym E0)).
  assert (Ecs : cs0 = ca ++ c :: cb) by (apply (f_equal chs) in E0; exact (eq_sym E0)).
  assert (Ljs : length js0 = length js).
  { apply (f_equal kvs) in E0. cbn [nd kvs] in E0. apply (f_equal (@length kv)) in E0.
    rewrite !app_length in *. lia. }
  clear E0. rewrite Lks in *. rewrite Ljs in *. subst cs0. clear Lks Ljs ks0 js0.
  apply Forall_app in F0. destruct F0 as (Fa & F0).
  pose proof (Forall_inv F0) as Fc. pose proof (Forall_inv_tail F0) as Fb. cbn beta in Fc. fold H2 in Fc.
  destruct Fc as (Wc & Uc').
  rewrite elems_nd, map_app in Inc. cbn [map] in Inc.
  rewrite flat_split in Inc by (rewrite map_length; lia).
  assert (Lcb : length cb = length b) by (rewrite !app_length in C0; cbn [length] in C0; lia).
  unfold fill. cbn [nd chs used]. rewrite nth_error_mid by lia. cbn [bind].
  (* The next-sibling part, common to two cases. *)
  assert (Next : forall (np : (length a =? 0) = true \/ (length a =? 0) = false /\ forall p, 
                      nth_error ca (length a - 1) = Some p -> used p < H2),
     exists a' b' js' ca' d cb',
      (fx <- (if length a =? length (a ++ b) then Some None
           else next <- nth_error (ca ++ c :: cb) (length a + 1);
                Some (if k / 2 <=? used next then Some next else None));
      match fx with
      | Some next => feed_next k (nd false (a ++ b) js (ca ++ c :: cb)) (length a) c next
      | None =>
        if negb (length a =? length (a ++ b)) then merge k (nd false (a ++ b) js (ca ++ c :: cb)) (length a)
        else if length a =? 0 then None
        else merge k (nd false (a ++ b) js (ca ++ c :: cb)) (length a - 1)
      end) = Some (nd false (a' ++ b') js' (ca' ++ d :: cb')) /\
    length ca' = length a' /\ wf k (S h) (nd false (a' ++ b') js' (ca' ++ d :: cb')) /\
    elems (nd false (a' ++ b') js' (ca' ++ d :: cb')) =
      elems (nd false (a ++ b) js (ca ++ c :: cb)) /\
    ltk key a' /\ gtk key b' /\ H2 <= used d /\
    length a' = (if (length a =? length (a ++ b)) && (length (a' ++ b') <? length a)
                 then length a - 1 else length a) /\
    length (a ++ b) - 1 <= length (a' ++ b') /\
    (length (a' ++ b') < length (a ++ b) -> used d = 2 * H2 - 1)).
  { intro np. destruct b as [|s b].
    - (* last child: merge with the previous one *)
      destruct cb; [|cbn [length] in Lcb; lia].
      rewrite app_nil_r in *. rewrite Nat.eqb_refl. cbn [bind negb].
      destruct (list_snoc a) as (a1 & s & ->); [destruct a; [cbn [length] in Lu; lia|discriminate]|].
      rewrite app_length in *. cbn [length] in *.
      destruct np as [np|(_ & np)]; [apply Nat.eqb_eq in np; lia|].
      destruct (list_snoc ca) as (ca1 & p & ->); [destruct ca; [cbn [length] in Lca; lia|discriminate]|].
      rewrite app_length in *. cbn [length] in *.
      apply Forall_app in Fa. destruct Fa as (Fa & Fp). pose proof (Forall_inv Fp) as (Wp & Up).
      fold H2 in Up.
      specialize (np p). rewrite nth_error_mid in np by lia. specialize (np eq_refl).
      replace (length a1 + 1 =? 0) with false by (symmetry; apply Nat.eqb_neq; lia).
      rewrite <- (app_assoc ca1). cbn [app].
      destruct (merge_spec h a1 s [] js ca1 p c [] (length a1 + 1 - 1)) as (d & js' & EM & LM & Wd & Ud & Ed);
        try lia; auto.
      rewrite EM. rewrite app_nil_r.
      exists a1, [], js', ca1, d, []. rewrite !app_nil_r.
      split; [reflexivity|]. split; [lia|]. split.
      { apply wf_nd_inner; try lia.
        - rewrite app_length. cbn [length]. lia.
        - apply Forall_app. split; [exact Fa|]. constructor; [|constructor]. split; [exact Wd|].
          fold H2. lia. }
      split.
      { rewrite !elems_nd, !map_app. cbn [map].
        replace (a1 ++ [s]) with ((a1 ++ [s]) ++ []) by apply app_nil_r.
        replace (map elems ca1 ++ [elems p; elems c]) with ((map elems ca1 ++ [elems p]) ++ [elems c])
          by (rewrite <- app_assoc; reflexivity).
        rewrite flat_split by (rewrite !app_length, map_length; cbn [length]; lia).
        replace (flat a1 (map elems ca1 ++ [elems d])) with (flat (a1 ++ []) (map elems ca1 ++ [elems d]))
          by (rewrite app_nil_r; reflexivity).
        rewrite flat_split by (rewrite map_length; lia).
        rewrite flatL_app by (rewrite map_length; lia). cbn [flatL flatR].
        rewrite Ed, !app_nil_r, <- !app_assoc. reflexivity. }
      apply Forall_app in Ha. destruct Ha as (Ha & _).
      split; [exact Ha|]. split; [constructor|]. split; [lia|].
      rewrite ltb_true by lia. cbn [andb]. split; [lia|]. split; lia.
    - destruct cb as [|nx cb]; [cbn [length] in Lcb; lia|]. cbn [length] in Lcb.
      rewrite app_length in Lu, L0, L0', C0 |- *. cbn [length] in *.
      replace (length a =? length a + S (length b)) with false by (symmetry; apply Nat.eqb_neq; lia).
      rewrite nth_error_mid1 by lia. cbn [bind negb andb].
      pose proof (Forall_inv Fb) as (Wn & Un). pose proof (Forall_inv_tail Fb) as Fb'. fold H2 in Un.
      assert (Hs : (key < fst s)%N) by exact (Forall_inv Hb).
      pose proof (Forall_inv_tail Hb) as Hb'.
      cbn [map flatR flat] in Inc.
      apply increasing_app in Inc. destruct Inc as (_ & Inc & _).
      apply increasing_app in Inc. destruct Inc as (_ & Inc & _).
      fold H2. destruct (Nat.leb_spec H2 (used nx)) as [Q|Q].
      + destruct (feed_next_spec h a s b js ca c nx cb (length a))
          as (l & c' & n' & EM & W1 & W2 & U1 & U2 & Il & Ee); try lia; auto.
        rewrite EM. exists a, (l :: b), js, ca, c', (n' :: cb).
        split; [reflexivity|]. split; [lia|]. split.
        { apply wf_nd_inner; rewrite ?app_length; cbn [length]; try lia.
          apply Forall_app. split; [exact Fa|].
          constructor; [split; [exact W1|fold H2; lia]|].
          constructor; [split; [exact W2|fold H2; lia]|exact Fb']. }
        split.
        { rewrite !elems_nd, !map_app. cbn [map].
          rewrite !flat_split by (rewrite map_length; lia). cbn [flatR]. rewrite !flat_cons. f_equal.
          transitivity ((elems c' ++ l :: elems n') ++ flatR b (map elems cb));
            [rewrite <- app_assoc; reflexivity|]. rewrite Ee, <- app_assoc. reflexivity. }
        split; [exact Ha|]. split.
        { constructor; [|exact Hb']. apply increasing_cons in Inc. destruct Inc as (Inc & _).
          rewrite Forall_forall in Inc. specialize (Inc l). 
          assert (QI : In l (flat b (elems nx :: map elems cb))).
          { destruct b; cbn; apply in_or_app; left; exact Il. }
          cbn [flat] in QI. specialize (Inc QI). lia. }
        split; [lia|]. rewrite app_length. cbn [length].
        split; [reflexivity|]. split; lia.
      + destruct (merge_spec h a s b js ca c nx cb (length a)) as (d & js' & EM & LM & Wd & Ud & Ed);
          try lia; auto.
        rewrite EM. exists a, b, js', ca, d, cb.
        split; [reflexivity|]. split; [lia|]. split.
        { apply wf_nd_inner; rewrite ?app_length; cbn [length]; try lia.
          apply Forall_app. split; [exact Fa|].
          constructor; [split; [exact Wd|fold H2; lia]|exact Fb']. }
        split.
        { rewrite !elems_nd, !map_app. cbn [map].
          rewrite !flat_split by (rewrite map_length; lia). cbn [flatR flat]. f_equal.
          rewrite Ed, <- app_assoc. cbn [app]. destruct b; reflexivity. }
        split; [exact Ha|]. split; [exact Hb'|]. split; [lia|].
        split; [reflexivity|]. rewrite app_length. split; lia. }
  destruct (Nat.eqb_spec (length a) 0) as [Z|Z].
  { cbn [bind]. apply Next. left. reflexivity. }
  destruct (list_snoc a) as (a1 & s & ->); [destruct a; [cbn [length] in Z; lia|discriminate]|].
  destruct (list_snoc ca) as (ca1 & p & ->).
  { intros ->. rewrite app_length in Lca. cbn [length] in Lca. lia. }
  assert (Lca1 : length ca1 = length a1) by (rewrite !app_length in Lca; cbn [length] in Lca; lia).
  assert (Np : forall rest, nth_error ((ca1 ++ [p]) ++ rest) (length (a1 ++ [s]) - 1) = Some p).
  { intro rest. rewrite <- app_assoc. apply nth_error_mid. rewrite app_length. cbn [length]. lia. }
  rewrite Np. cbn [bind]. fold H2. destruct (Nat.leb_spec H2 (used p)) as [Q|Q].
  2:{ apply Next. right. split; [reflexivity|]. intros p' Ep.
      specialize (Np []). rewrite app_nil_r in Np. congruence. }
  clear Next.
  apply Forall_app in Fa. destruct Fa as (Fa & Fp). pose proof (Forall_inv Fp) as (Wp & Up). fold H2 in Up.
  apply Forall_app in Ha. destruct Ha as (Ha & Hs). pose proof (Forall_inv Hs) as Hs'. cbn beta in Hs'.
  destruct (feed_prev_spec h a1 s b js ca1 p c cb (length (a1 ++ [s])))
    as (l & p' & c' & EM & W1 & W2 & U1 & U2 & Il & Ee); try lia; auto.
  { rewrite app_length. reflexivity. }
  rewrite <- !app_assoc. cbn [app].
  rewrite EM. exists (a1 ++ [l]), b, js, (ca1 ++ [p']), c', cb. rewrite <- !app_assoc. cbn [app].
  rewrite !app_length in *. cbn [length] in *.
  split; [reflexivity|]. split; [lia|]. split.
  { apply wf_nd_inner; rewrite ?app_length; cbn [length]; try lia.
    apply Forall_app. split; [exact Fa|].
    constructor; [split; [exact W1|fold H2; lia]|].
    constructor; [split; [exact W2|fold H2; lia]|exact Fb]. }
  split.
  { rewrite !elems_nd, !map_app. cbn [map].
    rewrite !flat_split by (rewrite map_length; lia). cbn [flatR]. rewrite !flat_cons. f_equal.
    transitivity ((elems p' ++ l :: elems c') ++ flatR b (map elems cb));
      [rewrite <- app_assoc; reflexivity|]. rewrite Ee, <- app_assoc. reflexivity. }
  split.
  { apply Forall_app. split; [exact Ha|]. constructor; [|constructor].
    rewrite map_app, flatL_app in Inc by (rewrite map_length; lia). cbn [map flatL] in Inc.
    rewrite <- app_assoc in Inc. apply increasing_app in Inc. destruct Inc as (_ & Inc & _).
    rewrite <- app_assoc in Inc. apply increasing_app in Inc. destruct Inc as (_ & _ & Inc).
    specialize (Inc l s Il (or_introl eq_refl)). lia. }
  split; [exact Hb|]. split; [lia|].
  replace (length a1 + S (length b) <? length a1 + 1) with false by (symmetry; apply Nat.ltb_ge; lia).
  rewrite andb_false_r. split; [lia|]. split; lia.
Qed.
End K.
