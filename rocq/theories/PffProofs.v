From Coq Require Import List NArith ZArith Bool Lia Permutation Arith.
From Coq Require Import ZifyBool ZifyNat ZifyN.
From Verif Require Import PftModel PftSpec PftProofs PffModel PffSpec.
Import ListNotations.
Open Scope Z_scope.

Lemma create_rep : exists p, pff_create = Some p /\ rep hops p fempty.
Proof. apply rep_create; vm_compute; discriminate. Qed.

Lemma create_rep' p : pff_create = Some p -> rep hops p fempty.
Proof. intros E. destruct create_rep as (q & E2 & H). congruence. Qed.

Lemma fset_eq {V} (m : fmap V) a v : fset m a v a = v.
Proof. unfold fset. rewrite N.eqb_refl. auto. Qed.
Lemma fset_neq {V} (m : fmap V) a v x : x <> a -> fset m a v x = m x.
Proof. intros H. unfold fset. destruct (N.eqb_spec x a); congruence. Qed.
Lemma tset_eq g a v : tset g a v a = v.
Proof. unfold tset. rewrite N.eqb_refl. auto. Qed.
Lemma tset_neq g a v x : x <> a -> tset g a v x = g x.
Proof. intros H. unfold tset. destruct (N.eqb_spec x a); congruence. Qed.

(** ** simple *)

Definition s_ok (g : option (list Z)) (v : option hops) : Prop :=
  match g with
  | None => v = None
  | Some l => exists h t, l = h :: t /\ v = Some (mk_hops [h] 1)
  end.
Definition s_inv (p : pft hops) (g : table) : Prop :=
  exists m, rep hops p m /\ forall a, s_ok (g a) (m a).

Lemma s_none g v : s_ok g v -> (g = None <-> v = None).
Proof.
  destruct g; cbn; [|tauto]. intros (h & t & _ & ->). split; discriminate.
Qed.

Lemma s_set g m a l v : (forall x, s_ok (g x) (m x)) -> s_ok l v -> forall x, s_ok (tset g a l x) (fset m a v x).
Proof. intros H1 H2 x. unfold tset, fset. destruct (x =? a)%N; auto. Qed.

Lemma simple_add_spec p g a h t : s_inv p g ->
  match g a with
  | Some _ => simple_add p a (h :: t) = Some (p, -1)
  | None => exists p', simple_add p a (h :: t) = Some (p', 0) /\ s_inv p' (tset g a (Some (h :: t)))
  end.
Proof.
  intros (m & Hr & Hs). pose proof (s_none _ _ (Hs a)) as Hn.
  pose proof (rep_insert hops p m a (mk_hops [h] 1) Hr) as K. unfold simple_add.
  destruct (g a) as [l|] eqn:Eg.
  - destruct (m a); [|destruct Hn as [_ Hn]; discriminate Hn; auto]. rewrite K. reflexivity.
  - destruct Hn as [Hn _]. rewrite Hn in K by auto. destruct K as (p' & -> & H').
    exists p'. split; [reflexivity|]. exists (fset m a (Some (mk_hops [h] 1))). split; auto.
    apply s_set; auto. cbn. eauto.
Qed.

Lemma simple_update_spec p g a h t : s_inv p g ->
  match g a with
  | None => simple_update p a (h :: t) = Some (p, -1)
  | Some _ => exists p', simple_update p a (h :: t) = Some (p', 0) /\ s_inv p' (tset g a (Some (h :: t)))
  end.
Proof.
  intros (m & Hr & Hs). pose proof (s_none _ _ (Hs a)) as Hn.
  pose proof (rep_delete hops p m a Hr) as K. unfold simple_update.
  destruct (g a) as [l|] eqn:Eg.
  - destruct (m a); [|destruct Hn as [_ Hn]; discriminate Hn; auto]. destruct K as (p1 & -> & H1).
    cbn [negb Z.eqb]. pose proof (rep_insert hops p1 _ a (mk_hops [h] 1) H1) as K2.
    rewrite fset_eq in K2. destruct K2 as (p2 & -> & H2). exists p2. split; [reflexivity|].
    exists (fset (fset m a None) a (Some (mk_hops [h] 1))). split; auto.
    intros x. unfold tset, fset. destruct (x =? a)%N; auto. cbn. eauto.
  - destruct Hn as [Hn _]. rewrite Hn in K by auto. rewrite K. reflexivity.
Qed.

Lemma simple_del_spec_gen (ok : option (list Z) -> option hops -> Prop) p g a m :
  rep hops p m -> (forall x, ok (g x) (m x)) -> ok None None ->
  (forall l v, ok l v -> (l = None <-> v = None)) ->
  match g a with
  | None => simple_del p a = Some (p, -1)
  | Some _ => exists p', simple_del p a = Some (p', 0) /\ rep hops p' (fset m a None) /\
                forall x, ok (tset g a None x) (fset m a None x)
  end.
Proof.
  intros Hr Hs Hok Hnone. pose proof (Hnone _ _ (Hs a)) as Hn.
  pose proof (rep_delete hops p m a Hr) as K. unfold simple_del.
  destruct (g a) as [l|] eqn:Eg.
  - destruct (m a); [|destruct Hn as [_ Hn]; discriminate Hn; auto]. destruct K as (p1 & -> & H1).
    exists p1. split; [reflexivity|]. split; auto.
    intros x. unfold tset, fset. destruct (x =? a)%N; auto.
  - destruct Hn as [Hn _]. rewrite Hn in K by auto. rewrite K. reflexivity.
Qed.

Lemma simple_del_spec p g a : s_inv p g ->
  match g a with
  | None => simple_del p a = Some (p, -1)
  | Some _ => exists p', simple_del p a = Some (p', 0) /\ s_inv p' (tset g a None)
  end.
Proof.
  intros (m & Hr & Hs).
  pose proof (simple_del_spec_gen s_ok p g a m Hr Hs eq_refl s_none) as K.
  destruct (g a); auto. destruct K as (p' & E & H1 & H2). exists p'. split; auto. exists (fset m a None). auto.
Qed.

Lemma simple_reach_inv p g : simple_reach p g -> s_inv p g.
Proof.
  intros H. induction H as [p E|p g a l p' r H IH E|p g a l p' r H IH E|p g a p' r H IH E|p g H IH].
  - exists fempty. split; [apply create_rep'; auto|]. intros a. reflexivity.
  - destruct l as [|h t]; [discriminate|]. pose proof (simple_add_spec p g a h t IH) as K.
    destruct (g a).
    + rewrite K in E. injection E as <- <-. auto.
    + destruct K as (q & K & H'). rewrite K in E. injection E as <- <-. auto.
  - destruct l as [|h t]; [discriminate|]. pose proof (simple_update_spec p g a h t IH) as K.
    destruct (g a).
    + destruct K as (q & K & H'). rewrite K in E. injection E as <- <-. auto.
    + rewrite K in E. injection E as <- <-. auto.
  - pose proof (simple_del_spec p g a IH) as K.
    destruct (g a).
    + destruct K as (q & K & H'). rewrite K in E. injection E as <- <-. auto.
    + rewrite K in E. injection E as <- <-. auto.
  - destruct IH as (m & Hr & _). exists fempty. split; [eapply rep_flush; eauto|]. intros a. reflexivity.
Qed.

Theorem simple_nhop_lemma p g a : simple_reach p g ->
  simple_nhop p a = Some (match g a with Some (h :: _) => h | _ => -1 end).
Proof.
  intros H. destruct (simple_reach_inv p g H) as (m & Hr & Hs). specialize (Hs a).
  unfold simple_nhop. rewrite (rep_lookup hops p m a Hr). destruct (g a) as [l|]; cbn in Hs.
  - destruct Hs as (h & t & -> & ->). reflexivity.
  - rewrite Hs. reflexivity.
Qed.

Theorem simple_results_lemma p g a h t : simple_reach p g ->
  (exists p', simple_add p a (h :: t) = Some (p', match g a with None => 0 | Some _ => -1 end)) /\
  (exists p', simple_update p a (h :: t) = Some (p', match g a with None => -1 | Some _ => 0 end)) /\
  (exists p', simple_del p a = Some (p', match g a with None => -1 | Some _ => 0 end)).
Proof.
  intros H. apply simple_reach_inv in H.
  pose proof (simple_add_spec p g a h t H) as K1.
  pose proof (simple_update_spec p g a h t H) as K2.
  pose proof (simple_del_spec p g a H) as K3.
  destruct (g a); repeat match goal with K : exists _, _ /\ _ |- _ => destruct K as (? & K & _) end;
  (split; [|split]); eauto.
Qed.

(** ** multipath *)

Definition rot (k : nat) (l : list Z) : list Z := skipn k l ++ firstn k l.

Definition m_ok (sent : list Z) (g : option (list Z)) (v : option hops) : Prop :=
  match g with
  | None => v = None
  | Some l => l <> [] /\ v = Some (mk_hops (rot (length sent mod length l) l) (length l)) /\
              (forall i, (i < length sent)%nat -> nth_error sent i = nth_error l (i mod length l))
  end.

Definition m_inv (p : pft hops) (g : table) (sent : N -> list Z) : Prop :=
  exists m, rep hops p m /\ forall a, m_ok (sent a) (g a) (m a).

Lemma m_none s g v : m_ok s g v -> (g = None <-> v = None).
Proof. destruct g; cbn; [|tauto]. intros (_ & -> & _). split; discriminate. Qed.

Lemma rot_length k l : (k <= length l)%nat -> length (rot k l) = length l.
Proof. intros H. unfold rot. rewrite app_length, skipn_length, firstn_length. lia. Qed.

Lemma rot_0 l : rot 0 l = l.
Proof. unfold rot. cbn. apply app_nil_r. Qed.

Lemma skipn_cons {A} k (l : list A) x : nth_error l k = Some x -> skipn k l = x :: skipn (S k) l.
Proof.
  revert l. induction k; intros [|y l] H; cbn in *; try discriminate.
  - congruence.
  - apply IHk. auto.
Qed.
Lemma firstn_snoc {A} k (l : list A) x : nth_error l k = Some x -> firstn (S k) l = firstn k l ++ [x].
Proof.
  revert l. induction k; intros [|y l] H; cbn in *; try discriminate.
  - congruence.
  - f_equal. apply IHk. auto.
Qed.

Lemma rot_step k l x : (k < length l)%nat -> nth_error l k = Some x ->
  exists t, rot k l = x :: t /\ t ++ [x] = rot (S k mod length l) l.
Proof.
  intros Hk Hx. unfold rot. rewrite (skipn_cons k l x Hx). cbn [app].
  eexists. split; [reflexivity|].
  rewrite <- app_assoc, <- (firstn_snoc k l x Hx).
  destruct (Nat.eq_dec (S k) (length l)) as [E|E].
  - rewrite E, Nat.mod_same by lia. cbn [skipn firstn]. rewrite skipn_all, firstn_all, app_nil_r. auto.
  - rewrite Nat.mod_small by lia. auto.
Qed.

Lemma rotate_rot k l : (k < length l)%nat ->
  rotate (mk_hops (rot k l) (length l)) = mk_hops (rot (S k mod length l) l) (length l).
Proof.
  intros Hk. destruct (nth_error l k) as [x|] eqn:E; [|apply nth_error_None in E; lia].
  destruct (rot_step k l x Hk E) as (t & E1 & E2). rewrite <- E2.
  assert (HL : length (x :: t) = length l) by (rewrite <- E1; apply rot_length; lia).
  unfold rotate; cbn [blk vlen]. rewrite E1.
  rewrite firstn_all2 by lia. rewrite skipn_all2 by lia. reflexivity.
Qed.

Lemma mod_S k n : n <> 0%nat -> (S k mod n = S (k mod n) mod n)%nat.
Proof.
  intros H. replace (S k) with (1 + k)%nat by lia. replace (S (k mod n)) with (1 + k mod n)%nat by lia.
  rewrite Nat.add_mod_idemp_r; auto.
Qed.

Lemma mp_nhop_spec p g sent a : m_inv p g sent ->
  match g a with
  | None => mp_nhop p a = Some (p, -1)
  | Some l => exists p' fd, mp_nhop p a = Some (p', fd) /\
      nth_error l (length (sent a) mod length l) = Some fd /\
      m_inv p' g (fun x => if (x =? a)%N then sent x ++ [fd] else sent x)
  end.
Proof.
  intros (m & Hr & Hs). pose proof (Hs a) as Ha. unfold mp_nhop.
  rewrite (rep_lookup hops p m a Hr).
  destruct (g a) as [l|] eqn:Eg; cbn in Ha.
  - destruct Ha as (Hl & Hv & Hn). rewrite Hv. cbn [blk vlen].
    assert (Hlen : (length l <> 0)%nat) by (destruct l; cbn; congruence).
    set (k := (length (sent a) mod length l)%nat) in *.
    assert (Hk : (k < length l)%nat) by (apply Nat.mod_upper_bound; auto).
    destruct (nth_error l k) as [fd|] eqn:Ek; [|apply nth_error_None in Ek; lia].
    destruct (rot_step k l fd Hk Ek) as (t & Et & Et2).
    rewrite Et. cbn [nth_error]. destruct (Nat.eqb_spec (length l) 0); [lia|].
    destruct (rep_modify hops p m a rotate Hr) as (p' & -> & Hr').
    exists p', fd. split; [reflexivity|]. split; [auto|].
    exists (fset m a (option_map rotate (m a))). split; [exact Hr'|].
    intros x. unfold fset. destruct (N.eqb_spec x a) as [->|Hne]; [|apply Hs].
    rewrite Eg, Hv. cbn [m_ok option_map]. split; [auto|]. split.
    + fold k. rewrite rotate_rot by auto. rewrite app_length. cbn [length].
      rewrite (Nat.add_comm (length (sent a))). cbn [Nat.add].
      rewrite (mod_S (length (sent a)) (length l)) by auto. reflexivity.
    + intros i Hi. rewrite app_length in Hi. cbn [length] in Hi.
      destruct (Nat.eq_dec i (length (sent a))) as [->|Hi2].
      * rewrite nth_error_app2, Nat.sub_diag by lia. cbn. fold k. auto.
      * rewrite nth_error_app1 by lia. apply Hn. lia.
  - rewrite Ha. reflexivity.
Qed.

Lemma mp_add_spec p g sent a h t : m_inv p g sent ->
  match g a with
  | Some _ => mp_add p a (h :: t) = Some (p, -1)
  | None => exists p', mp_add p a (h :: t) = Some (p', 0) /\
      m_inv p' (tset g a (Some (h :: t))) (fun x => if (x =? a)%N then [] else sent x)
  end.
Proof.
  intros (m & Hr & Hs). pose proof (m_none _ _ _ (Hs a)) as Hn. unfold mp_add.
  pose proof (rep_insert hops p m a (mk_hops (h :: t) (length (h :: t))) Hr) as K.
  destruct (g a) as [l|] eqn:Eg.
  - destruct (m a); [|destruct Hn as [_ Hn]; discriminate Hn; auto]. rewrite K. reflexivity.
  - destruct Hn as [Hn _]. rewrite Hn in K by auto. destruct K as (p' & -> & H').
    exists p'. split; [reflexivity|]. eexists. split; [exact H'|].
    intros x. unfold tset, fset. destruct (x =? a)%N; [|apply Hs].
    cbn [m_ok]. split; [discriminate|]. split.
    + rewrite Nat.mod_0_l by (cbn; lia). rewrite rot_0. reflexivity.
    + cbn. intros; lia.
Qed.

Lemma mp_update_spec p g sent a h : m_inv p g sent ->
  match g a with
  | None => mp_update p a [h] = Some (p, -1)
  | Some _ => exists p', mp_update p a [h] = Some (p', 0) /\
      m_inv p' (tset g a (Some [h])) (fun x => if (x =? a)%N then [] else sent x)
  end.
Proof.
  intros (m & Hr & Hs). pose proof (m_none _ _ _ (Hs a)) as Hn. unfold mp_update.
  pose proof (rep_delete hops p m a Hr) as K.
  destruct (g a) as [l|] eqn:Eg.
  - destruct (m a); [|destruct Hn as [_ Hn]; discriminate Hn; auto]. destruct K as (p1 & -> & H1).
    cbn [negb Z.eqb]. pose proof (rep_insert hops p1 _ a (mk_hops [h] 1) H1) as K2.
    rewrite fset_eq in K2. destruct K2 as (p2 & -> & H2). exists p2. split; [reflexivity|].
    eexists. split; [exact H2|].
    intros x. unfold tset, fset. destruct (x =? a)%N; [|apply Hs].
    cbn [m_ok]. split; [discriminate|]. split; [reflexivity|]. cbn. intros; lia.
  - destruct Hn as [Hn _]. rewrite Hn in K by auto. rewrite K. reflexivity.
Qed.

Lemma m_ext p g s1 s2 : (forall x, s1 x = s2 x) -> m_inv p g s1 -> m_inv p g s2.
Proof. intros E (m & Hr & Hs). exists m. split; auto. intros x. rewrite <- E. apply Hs. Qed.

Lemma mp_del_spec p g sent a : m_inv p g sent ->
  match g a with
  | None => simple_del p a = Some (p, -1)
  | Some _ => exists p', simple_del p a = Some (p', 0) /\
      m_inv p' (tset g a None) (fun x => if (x =? a)%N then [] else sent x)
  end.
Proof.
  intros (m & Hr & Hs). pose proof (m_none _ _ _ (Hs a)) as Hn. unfold simple_del.
  pose proof (rep_delete hops p m a Hr) as K.
  destruct (g a) as [l|] eqn:Eg.
  - destruct (m a); [|destruct Hn as [_ Hn]; discriminate Hn; auto]. destruct K as (p1 & -> & H1).
    exists p1. split; [reflexivity|]. eexists. split; [exact H1|].
    intros x. unfold tset, fset. destruct (x =? a)%N; [reflexivity|apply Hs].
  - destruct Hn as [Hn _]. rewrite Hn in K by auto. rewrite K. reflexivity.
Qed.

Lemma mp_reach_inv p g sent : mp_reach p g sent -> m_inv p g sent.
Proof.
  intros H. induction H as [p E|p g sent a l p' r H IH E|p g sent a l p' r H IH E
    |p g sent a p' r H IH E|p g sent H IH|p g sent a p' fd H IH E].
  - exists fempty. split; [apply create_rep'; auto|]. intros a. reflexivity.
  - destruct l as [|h t]; [discriminate|]. pose proof (mp_add_spec p g sent a h t IH) as K.
    destruct (g a).
    + rewrite K in E. injection E as <- <-. auto.
    + destruct K as (q & K & H'). rewrite K in E. injection E as <- <-. auto.
  - destruct l as [|h [|h2 t]]; try discriminate. pose proof (mp_update_spec p g sent a h IH) as K.
    destruct (g a).
    + destruct K as (q & K & H'). rewrite K in E. injection E as <- <-. auto.
    + rewrite K in E. injection E as <- <-. auto.
  - pose proof (mp_del_spec p g sent a IH) as K. destruct (g a).
    + destruct K as (q & K & H'). rewrite K in E. injection E as <- <-. auto.
    + rewrite K in E. injection E as <- <-. auto.
  - destruct IH as (m & Hr & _). exists fempty. split; [eapply rep_flush; eauto|]. intros a. reflexivity.
  - pose proof (mp_nhop_spec p g sent a IH) as K. destruct (g a) eqn:Eg.
    + destruct K as (q & fd' & K & _ & H'). rewrite K in E. injection E as <- <-.
      eapply m_ext; [|exact H']. intros x. cbn. rewrite andb_true_r. auto.
    + rewrite K in E. injection E as <- <-. eapply m_ext; [|exact IH]. intros x. rewrite andb_false_r. auto.
Qed.

Theorem mp_round_robin p g sent a l : mp_reach p g sent -> g a = Some l ->
  (forall i, (i < length (sent a))%nat -> nth_error (sent a) i = nth_error l (i mod length l)) /\
  exists p' fd, mp_nhop p a = Some (p', fd) /\ nth_error l (length (sent a) mod length l) = Some fd.
Proof.
  intros H Eg. apply mp_reach_inv in H. pose proof (mp_nhop_spec p g sent a H) as K. rewrite Eg in K.
  split.
  - destruct H as (m & _ & Hs). specialize (Hs a). rewrite Eg in Hs. apply Hs.
  - destruct K as (p' & fd & K1 & K2 & _). eauto.
Qed.

Theorem mp_absent p g sent a : mp_reach p g sent -> g a = None -> mp_nhop p a = Some (p, -1).
Proof.
  intros H Eg. apply mp_reach_inv in H. pose proof (mp_nhop_spec p g sent a H) as K. rewrite Eg in K. auto.
Qed.

Theorem mp_update_ub p a h1 h2 t : mp_update p a (h1 :: h2 :: t) = None.
Proof. reflexivity. Qed.

(** ** alternate *)

Definition a_ok (g : option (list Z)) (v : option hops) : Prop :=
  match g with
  | None => v = None
  | Some l => exists h t perm, l = h :: t /\ v = Some (mk_hops (perm ++ [h]) (length l)) /\ Permutation perm l
  end.

Definition a_inv (s : alt) (g : table) (dn : list Z) : Prop :=
  exists m, rep hops (apft s) m /\ (forall a, a_ok (g a) (m a)) /\
    NoDup (addrs s) /\ (forall a, In a (addrs s) <-> g a <> None) /\ nhops_down s = dn.

Lemma a_none g v : a_ok g v -> (g = None <-> v = None).
Proof. destruct g; cbn; [|tauto]. intros (h & t & p & _ & -> & _). split; discriminate. Qed.

Lemma upd_snoc {A} (l : list A) i x y : (i < length l)%nat -> upd (l ++ [y]) i x = upd l i x ++ [y].
Proof.
  revert i. induction l as [|z l IH]; cbn; intros i H; [lia|]. destruct i; cbn; auto.
  f_equal. apply IH. lia.
Qed.

Lemma upd_same {A} (l : list A) i x : nth_error l i = Some x -> upd l i x = l.
Proof.
  revert i. induction l as [|z l IH]; cbn; intros i H; [destruct i; discriminate|].
  destruct i; cbn in *; [congruence|]. f_equal. auto.
Qed.

Lemma upd_perm {A} (l : list A) i a b : nth_error l i = Some b -> Permutation (a :: l) (b :: upd l i a).
Proof.
  revert i. induction l as [|z l IH]; cbn; intros i H; [destruct i; discriminate|].
  destruct i; cbn in *.
  - injection H as ->. apply perm_swap.
  - etransitivity; [apply perm_swap|]. etransitivity; [apply perm_skip, IH, H|]. apply perm_swap.
Qed.

(** Swapping inside the first part of the block permutes it. *)
Lemma swap0_perm perm x i : (i < length perm)%nat -> exists perm' b,
  swap0 (perm ++ [x]) i = Some (perm' ++ [x]) /\ Permutation perm' perm /\
  nth_error perm i = Some b /\ hd_error perm' = Some b.
Proof.
  intros Hi. destruct perm as [|a perm]; [cbn in Hi; lia|].
  destruct (nth_error (a :: perm) i) as [b|] eqn:Eb; [|apply nth_error_None in Eb; lia].
  unfold swap0. cbn [app nth_error].
  assert (Eb' : nth_error ((a :: perm) ++ [x]) i = Some b) by (rewrite nth_error_app1; auto).
  cbn [app] in Eb'. rewrite Eb'. cbn [upd].
  destruct i as [|i]; cbn [upd].
  - cbn in Eb. injection Eb as ->. exists (b :: perm), b. repeat split; auto.
  - cbn [nth_error] in Eb. rewrite upd_snoc by (cbn in Hi; lia).
    exists (b :: upd perm i a), b. split; [reflexivity|]. split; [|auto].
    symmetry. apply upd_perm. auto.
Qed.

Lemma swap_first_spec perm x f n : forall i, (i + n = length perm)%nat -> exists perm',
  swap_first (perm ++ [x]) f i n = Some (perm' ++ [x]) /\ Permutation perm' perm /\
  ((exists b j, (i <= j)%nat /\ nth_error perm j = Some b /\ f b = true /\ hd_error perm' = Some b) \/
   (perm' = perm /\ forall j b, (i <= j)%nat -> nth_error perm j = Some b -> f b = false)).
Proof.
  induction n as [|n IH]; intros i Hi; cbn [swap_first].
  - exists perm. repeat split; auto. right. split; auto. intros j b Hj Hb.
    assert (nth_error perm j = None) by (apply nth_error_None; lia). congruence.
  - rewrite nth_error_app1 by lia. destruct (nth_error perm i) as [y|] eqn:Ey;
      [|apply nth_error_None in Ey; lia].
    destruct (f y) eqn:Ef.
    + destruct (swap0_perm perm x i) as (perm' & b & H1 & H2 & H3 & H4); [lia|].
      exists perm'. repeat split; auto. left. exists b, i. repeat split; auto. congruence.
    + destruct (IH (S i)) as (perm' & H1 & H2 & H3); [lia|]. exists perm'. repeat split; auto.
      destruct H3 as [(b & j & K1 & K2 & K3 & K4)|(-> & K)].
      * left. exists b, j. repeat split; auto. lia.
      * right. split; auto. intros j b Hj Hb. destruct (Nat.eq_dec i j) as [<-|]; [congruence|].
        apply (K j b); auto. lia.
Qed.

Lemma switch_down_spec down fd perm h l : Permutation perm l -> l <> [] ->
  exists perm' cur cur', switch_down down fd (mk_hops (perm ++ [h]) (length l)) =
      Some (mk_hops (perm' ++ [h]) (length l)) /\
    Permutation perm' l /\ hd_error perm = Some cur /\ hd_error perm' = Some cur' /\
    (cur <> fd -> perm' = perm) /\
    (cur = fd -> In fd down ->
       (~ In cur' down) \/ (perm' = perm /\ forall x, In x l -> In x down)).
Proof.
  intros Hp Hl. destruct perm as [|cur rest].
  { apply Permutation_nil in Hp. congruence. }
  pose proof (Permutation_length Hp) as Hlen. cbn [length] in Hlen.
  unfold switch_down; cbn [blk vlen]. cbn [app nth_error].
  destruct (Z.eqb_spec cur fd) as [->|Hne].
  - destruct (swap_first_spec (fd :: rest) h (fun x => negb (nhops_down_has down x)) (length rest) 1)
      as (perm' & H1 & H2 & H3); [cbn; lia|].
    replace (length l - 1)%nat with (length rest) by lia.
    change (fd :: rest ++ [h]) with ((fd :: rest) ++ [h]). rewrite H1. cbn [option_map].
    destruct perm' as [|c' r']; [apply Permutation_nil in H2; discriminate|].
    exists (c' :: r'), fd, c'. repeat split; auto; try congruence.
    + etransitivity; eauto.
    + intros _ Hd. destruct H3 as [(b & j & K1 & K2 & K3 & K4)|(E & K)].
      * left. cbn in K4. injection K4 as ->. intros Hin.
        unfold nhops_down_has in K3. assert (existsb (fun e => e =? b) down = true).
        { apply existsb_exists. exists b. split; auto. lia. }
        rewrite H in K3. discriminate.
      * right. split; auto. intros x Hx. apply (Permutation_in x (Permutation_sym Hp)) in Hx.
        destruct Hx as [->|Hx]; auto. apply In_nth_error in Hx. destruct Hx as [j Hj].
        specialize (K (S j) x ltac:(lia) Hj). unfold nhops_down_has in K.
        destruct (existsb (fun e => e =? x) down) eqn:Ee; [|discriminate].
        apply existsb_exists in Ee. destruct Ee as (y & Hy & E2). assert (y = x) by lia. congruence.
  - exists (cur :: rest), cur, cur. repeat split; auto.
Qed.

Lemma switch_up_spec fd perm h t : Permutation perm (h :: t) ->
  exists perm' cur cur', switch_up fd (mk_hops (perm ++ [h]) (length (h :: t))) =
      Some (mk_hops (perm' ++ [h]) (length (h :: t))) /\
    Permutation perm' (h :: t) /\ hd_error perm = Some cur /\ hd_error perm' = Some cur' /\
    (h <> fd -> perm' = perm) /\ (h = fd -> cur' = fd).
Proof.
  intros Hp. destruct perm as [|cur rest].
  { apply Permutation_nil in Hp. congruence. }
  pose proof (Permutation_length Hp) as Hlen.
  unfold switch_up; cbn [blk vlen].
  rewrite <- Hlen, nth_error_app2, Nat.sub_diag by lia. cbn [nth_error app].
  destruct (Z.eqb_spec h fd) as [->|Hne]; cbn [andb].
  - destruct (Z.eqb_spec cur fd) as [->|Hc]; cbn [negb].
    + exists (fd :: rest), fd, fd. repeat split; auto.
    + destruct (swap_first_spec (cur :: rest) fd (fun x => x =? fd) (length (cur :: rest)) 0)
        as (perm' & H1 & H2 & H3); [cbn; lia|].
      change (cur :: rest ++ [fd]) with ((cur :: rest) ++ [fd]). rewrite H1. cbn [option_map].
      destruct perm' as [|c' r']; [apply Permutation_nil in H2; discriminate|].
      exists (c' :: r'), cur, c'. repeat split; auto; try congruence.
      * etransitivity; eauto.
      * intros _. destruct H3 as [(b & j & K1 & K2 & K3 & K4)|(E & K)].
        -- cbn in K4. injection K4 as ->. cbv beta in K3. lia.
        -- exfalso. assert (Hin : In fd (cur :: rest)).
           { apply (Permutation_in fd (Permutation_sym Hp)). left. auto. }
           apply In_nth_error in Hin. destruct Hin as [j Hj].
           specialize (K j fd ltac:(lia) Hj). cbv beta in K. lia.
  - exists (cur :: rest), cur, cur. repeat split; auto. intros; congruence.
Qed.

(** The loop over the addresses applies the switch to every entry. *)
Lemma switch_all_spec (sw : hops -> option hops) (G : table) : forall l p m,
  rep hops p m -> NoDup l ->
  (forall a, In a l -> exists v v', m a = Some v /\ sw v = Some v') ->
  exists p' m', switch_all sw p l = Some (p', 0) /\ rep hops p' m' /\
    (forall a, ~ In a l -> m' a = m a) /\
    (forall a v, In a l -> m a = Some v -> m' a = sw v).
Proof.
  induction l as [|a l IH]; intros p m Hr Hnd Hall; cbn [switch_all].
  - exists p, m. repeat split; auto. intros a v [].
  - inversion Hnd as [|? ? Hni Hnd']; subst.
    destruct (Hall a (or_introl eq_refl)) as (v & v' & Hv & Hsw).
    rewrite (rep_lookup hops p m a Hr), Hv, Hsw.
    destruct (rep_modify hops p m a (fun _ => v') Hr) as (p1 & -> & Hr1).
    rewrite Hv in Hr1. cbn [option_map] in Hr1.
    destruct (IH p1 _ Hr1 Hnd') as (p' & m' & E & Hr' & K1 & K2).
    { intros b Hb. assert (b <> a) by congruence. rewrite fset_neq by auto. apply Hall. right; auto. }
    exists p', m'. split; auto. split; auto. split.
    + intros b Hb. rewrite K1 by (intros Hb2; apply Hb; right; auto).
      apply fset_neq. intros ->. apply Hb. left; auto.
    + intros b w [->|Hb] Hw.
      * rewrite K1 by auto. rewrite fset_eq. congruence.
      * assert (b <> a) by congruence. eapply K2; auto. rewrite fset_neq; auto.
Qed.

Lemma alt_down_spec s g dn fd : a_inv s g dn ->
  exists s', alt_change s fd false = Some (s', 0) /\ a_inv s' g (fd :: dn) /\
    forall a l, g a = Some l -> exists c c', alt_nhop s a = Some c /\ alt_nhop s' a = Some c' /\
      In c' l /\ (c <> fd -> c' = c) /\
      (c = fd -> (exists x, In x l /\ ~ In x (fd :: dn)) -> ~ In c' (fd :: dn)).
Proof.
  intros (m & Hr & Hok & Hnd & Hin & Hdn). unfold alt_change. cbv zeta. rewrite Hdn.
  destruct (switch_all_spec (switch_down (fd :: dn) fd) g (addrs s) (apft s) m Hr Hnd)
    as (p' & m' & E & Hr' & K1 & K2).
  { intros a Ha. apply Hin in Ha. specialize (Hok a). destruct (g a) as [l|] eqn:Eg; [|congruence].
    destruct Hok as (h & t & perm & -> & Hv & Hp).
    destruct (switch_down_spec (fd :: dn) fd perm h (h :: t) Hp) as (perm' & cur & cur' & Hs & _); [discriminate|].
    rewrite Hv. eauto. }
  rewrite E. eexists. split; [reflexivity|]. split.
  - exists m'. split; [exact Hr'|]. split; [|auto].
    intros a. specialize (Hok a). destruct (g a) as [l|] eqn:Eg.
    + destruct Hok as (h & t & perm & -> & Hv & Hp).
      destruct (switch_down_spec (fd :: dn) fd perm h (h :: t) Hp) as (perm' & cur & cur' & Hs & Hp' & _); [discriminate|].
      assert (Ha : In a (addrs s)) by (apply Hin; congruence).
      cbn [a_ok]. exists h, t, perm'. rewrite (K2 a _ Ha Hv), Hs. auto.
    + cbn in Hok |- *. rewrite K1; auto. intros Ha. apply Hin in Ha. congruence.
  - intros a l Eg. specialize (Hok a). rewrite Eg in Hok.
    destruct Hok as (h & t & perm & -> & Hv & Hp).
    destruct (switch_down_spec (fd :: dn) fd perm h (h :: t) Hp)
      as (perm' & cur & cur' & Hs & Hp' & Hc & Hc' & D1 & D2); [discriminate|].
    assert (Ha : In a (addrs s)) by (apply Hin; congruence).
    destruct perm as [|? perm]; [discriminate|]. injection Hc as ->.
    destruct perm' as [|? perm']; [discriminate|]. injection Hc' as ->.
    exists cur, cur'. unfold alt_nhop, simple_nhop. cbn [apft].
    rewrite (rep_lookup hops _ m a Hr), Hv.
    rewrite (rep_lookup hops _ m' a Hr'), (K2 a _ Ha Hv), Hs. cbn [blk app nth_error].
    repeat split; auto.
    + apply (Permutation_in cur' Hp'). left; auto.
    + intros Hne. specialize (D1 Hne). congruence.
    + intros -> (x & Hx & Hxd). destruct (D2 eq_refl ltac:(left; auto)) as [D|[_ D]]; auto.
Qed.

Lemma remove1_in l fd : nhops_down_has l fd = false -> remove1 Z.eqb fd l = l.
Proof.
  induction l as [|y l IH]; cbn; auto. rewrite orb_false_iff. intros [H1 H2]. rewrite H1.
  f_equal. auto.
Qed.

Lemma alt_up_spec s g dn fd : a_inv s g dn ->
  exists s' r, alt_change s fd true = Some (s', r) /\ a_inv s' g (remove1 Z.eqb fd dn) /\
    (r = 0 <-> In fd dn) /\
    forall a l, g a = Some l -> exists c c', alt_nhop s a = Some c /\ alt_nhop s' a = Some c' /\
      In c' l /\ (hd_error l <> Some fd -> c' = c) /\
      (In fd dn -> hd_error l = Some fd -> c' = fd).
Proof.
  intros (m & Hr & Hok & Hnd & Hin & Hdn). unfold alt_change. rewrite Hdn.
  destruct (nhops_down_has dn fd) eqn:Ed.
  - cbv zeta.
    destruct (switch_all_spec (switch_up fd) g (addrs s) (apft s) m Hr Hnd)
      as (p' & m' & E & Hr' & K1 & K2).
    { intros a Ha. apply Hin in Ha. specialize (Hok a). destruct (g a) as [l|] eqn:Eg; [|congruence].
      destruct Hok as (h & t & perm & -> & Hv & Hp).
      destruct (switch_up_spec fd perm h t Hp) as (perm' & cur & cur' & Hs & _).
      rewrite Hv. eauto. }
    rewrite E. eexists; eexists. split; [reflexivity|]. split; [|split].
    + exists m'. split; [exact Hr'|]. split; [|auto].
      intros a. specialize (Hok a). destruct (g a) as [l|] eqn:Eg.
      * destruct Hok as (h & t & perm & -> & Hv & Hp).
        destruct (switch_up_spec fd perm h t Hp) as (perm' & cur & cur' & Hs & Hp' & _).
        assert (Ha : In a (addrs s)) by (apply Hin; congruence).
        cbn [a_ok]. exists h, t, perm'. rewrite (K2 a _ Ha Hv), Hs. auto.
      * cbn in Hok |- *. rewrite K1; auto. intros Ha. apply Hin in Ha. congruence.
    + split; auto. intros _. apply existsb_exists in Ed. destruct Ed as (y & Hy & Ey).
      assert (y = fd) by lia. congruence.
    + intros a l Eg. specialize (Hok a). rewrite Eg in Hok.
      destruct Hok as (h & t & perm & -> & Hv & Hp).
      destruct (switch_up_spec fd perm h t Hp)
        as (perm' & cur & cur' & Hs & Hp' & Hc & Hc' & D1 & D2).
      assert (Ha : In a (addrs s)) by (apply Hin; congruence).
      destruct perm as [|? perm]; [discriminate|]. injection Hc as ->.
      destruct perm' as [|? perm']; [discriminate|]. injection Hc' as ->.
      exists cur, cur'. unfold alt_nhop, simple_nhop. cbn [apft].
      rewrite (rep_lookup hops _ m a Hr), Hv.
      rewrite (rep_lookup hops _ m' a Hr'), (K2 a _ Ha Hv), Hs. cbn [blk app nth_error hd_error].
      repeat split; auto.
      * apply (Permutation_in cur' Hp'). left; auto.
      * intros Hne. assert (h <> fd) by congruence. specialize (D1 H). congruence.
      * intros _ [= ->]. auto.
  - exists s, (-1). split; [reflexivity|]. rewrite remove1_in by auto.
    assert (Hnin : ~ In fd dn).
    { intros Hi. assert (nhops_down_has dn fd = true); [|congruence].
      apply existsb_exists. exists fd. split; auto. lia. }
    split; [|split].
    + exists m. auto.
    + split; [discriminate|tauto].
    + intros a l Eg. specialize (Hok a). rewrite Eg in Hok.
      destruct Hok as (h & t & perm & -> & Hv & Hp).
      destruct perm as [|cur perm]; [apply Permutation_nil in Hp; discriminate|].
      exists cur, cur. unfold alt_nhop, simple_nhop. rewrite (rep_lookup hops _ m a Hr), Hv.
      repeat split; auto; [|tauto]. apply (Permutation_in cur Hp). left; auto.
Qed.

Lemma add_to_pft_spec p m a h t : rep hops p m ->
  match m a with
  | Some _ => add_to_pft p a (h :: t) = Some (p, -1)
  | None => exists p', add_to_pft p a (h :: t) = Some (p', 0) /\
      rep hops p' (fset m a (Some (mk_hops ((h :: t) ++ [h]) (length (h :: t)))))
  end.
Proof.
  intros Hr. unfold add_to_pft.
  pose proof (rep_insert hops p m a (mk_hops ((h :: t) ++ [h]) (length (h :: t))) Hr) as K.
  destruct (m a).
  - rewrite K. reflexivity.
  - destruct K as (p' & -> & H). exists p'. split; [reflexivity|exact H].
Qed.

Lemma a_ok_new h t : a_ok (Some (h :: t)) (Some (mk_hops ((h :: t) ++ [h]) (length (h :: t)))).
Proof. exists h, t, (h :: t). auto. Qed.

Lemma remove1_N_in a x l : NoDup l -> In x (remove1 N.eqb a l) <-> In x l /\ x <> a.
Proof.
  induction l as [|y l IH]; cbn; intros H; [tauto|]. inversion H; subst.
  destruct (N.eqb_spec y a) as [->|Hne].
  - split; [intros Hx; split; auto; congruence|]. intros [[->|Hx] Hn]; congruence.
  - cbn. rewrite IH by auto. split.
    + intros [->|[? ?]]; auto.
    + intros [[->|?] ?]; auto.
Qed.
Lemma remove1_N_nodup a l : NoDup l -> NoDup (remove1 N.eqb a l).
Proof.
  induction l as [|y l IH]; cbn; intros H; auto. inversion H; subst.
  destruct (N.eqb_spec y a); auto. constructor; auto. rewrite remove1_N_in by auto. tauto.
Qed.

Lemma alt_reach_inv s g dn : alt_reach s g dn -> a_inv s g dn.
Proof.
  intros H. induction H as [s E|s g dn a l s' r H IH E|s g dn a l s' r H IH E
    |s g dn a s' r H IH E|s g dn H IH|s g dn fd s' r H IH E|s g dn fd s' r H IH E].
  - unfold alt_create in E. destruct create_rep as (p & Ep & Hr). rewrite Ep in E. injection E as <-.
    exists fempty. split; [exact Hr|]. split; [intros a; reflexivity|]. split; [constructor|].
    split; [|reflexivity]. intros a. cbn. split; [tauto|congruence].
  - destruct l as [|h t]; [discriminate|]. destruct IH as (m & Hr & Hok & Hnd & Hin & Hdn).
    pose proof (add_to_pft_spec (apft s) m a h t Hr) as K. unfold alt_add in E.
    pose proof (a_none _ _ (Hok a)) as Hn. destruct (m a) eqn:Em.
    + rewrite K in E. cbn in E. injection E as <- <-. cbn. exists m. auto.
    + destruct K as (p' & K & Hr'). rewrite K in E. cbn in E. injection E as <- <-. cbn [Z.eqb].
      assert (Eg : g a = None) by (apply Hn; auto).
      eexists. split; [exact Hr'|]. cbn [addrs nhops_down]. split; [|split; [|split; auto]].
      * intros x. unfold tset, fset. destruct (x =? a)%N; auto. apply a_ok_new.
      * constructor; auto. rewrite Hin. congruence.
      * intros x. cbn [In]. unfold tset. destruct (N.eqb_spec x a) as [->|Hne].
        -- split; [discriminate|auto].
        -- rewrite Hin. split; [intros [?|?]; congruence|auto].
  - destruct l as [|h t]; [discriminate|]. destruct IH as (m & Hr & Hok & Hnd & Hin & Hdn).
    pose proof (rep_delete hops (apft s) m a Hr) as K. unfold alt_update in E.
    pose proof (a_none _ _ (Hok a)) as Hn. destruct (m a) eqn:Em.
    + destruct K as (p1 & K & Hr1). rewrite K in E. cbn [negb Z.eqb] in E.
      pose proof (add_to_pft_spec p1 _ a h t Hr1) as K2. rewrite fset_eq in K2.
      destruct K2 as (p2 & K2 & Hr2). rewrite K2 in E. cbn [Z.eqb] in E. injection E as <- <-.
      cbn [Z.eqb]. eexists. split; [exact Hr2|]. cbn [addrs nhops_down]. split; [|split; [auto|split; auto]].
      * intros x. unfold tset, fset. destruct (x =? a)%N; auto. apply a_ok_new.
      * intros x. rewrite Hin. unfold tset. destruct (N.eqb_spec x a) as [->|Hne]; [|tauto].
        split; [discriminate|]. intros _ Hg. apply Hn in Hg. discriminate.
    + rewrite K in E. cbn in E. injection E as <- <-. cbn. exists m. auto.
  - destruct IH as (m & Hr & Hok & Hnd & Hin & Hdn).
    pose proof (rep_delete hops (apft s) m a Hr) as K. unfold alt_del in E.
    pose proof (a_none _ _ (Hok a)) as Hn. destruct (m a) eqn:Em.
    + destruct K as (p1 & K & Hr1). rewrite K in E. cbn [Z.eqb] in E. injection E as <- <-. cbn [Z.eqb].
      eexists. split; [exact Hr1|]. cbn [addrs nhops_down]. split; [|split; [|split; auto]].
      * intros x. unfold tset, fset. destruct (x =? a)%N; auto. reflexivity.
      * apply remove1_N_nodup; auto.
      * intros x. rewrite remove1_N_in by auto. rewrite Hin. unfold tset.
        destruct (N.eqb_spec x a); [|tauto]. split; [tauto|congruence].
    + rewrite K in E. cbn in E. injection E as <- <-. cbn. exists m. split; auto. split; auto.
      assert (Eg : g a = None) by (apply Hn; auto).
      split; [apply remove1_N_nodup; auto|]. split; auto. intros x. cbn [addrs].
      rewrite remove1_N_in by auto. rewrite Hin. split; [tauto|]. intros Hx. split; auto. congruence.
  - destruct IH as (m & Hr & _). exists fempty. split; [eapply rep_flush; eauto|].
    split; [intros a; reflexivity|]. split; [constructor|]. split; [|reflexivity].
    intros a. cbn. split; [tauto|congruence].
  - destruct (alt_down_spec s g dn fd IH) as (s2 & E2 & H2 & _). rewrite E2 in E. injection E as <- <-. auto.
  - destruct (alt_up_spec s g dn fd IH) as (s2 & r2 & E2 & H2 & _). rewrite E2 in E. injection E as <- <-. auto.
Qed.

Theorem alt_nhop_given s g dn a : alt_reach s g dn ->
  match g a with
  | None => alt_nhop s a = Some (-1)
  | Some l => exists h, alt_nhop s a = Some h /\ In h l
  end.
Proof.
  intros H. destruct (alt_reach_inv s g dn H) as (m & Hr & Hok & _). specialize (Hok a).
  unfold alt_nhop, simple_nhop. rewrite (rep_lookup hops _ m a Hr). destruct (g a) as [l|]; cbn in Hok.
  - destruct Hok as (h & t & perm & -> & -> & Hp).
    destruct perm as [|cur perm]; [apply Permutation_nil in Hp; discriminate|].
    exists cur. split; auto. apply (Permutation_in cur Hp). left; auto.
  - rewrite Hok. reflexivity.
Qed.

Theorem alt_down_lemma s g dn fd : alt_reach s g dn ->
  exists s', alt_change s fd false = Some (s', 0) /\
    forall a l, g a = Some l -> exists c c', alt_nhop s a = Some c /\ alt_nhop s' a = Some c' /\
      In c' l /\ (c <> fd -> c' = c) /\
      (c = fd -> (exists x, In x l /\ ~ In x (fd :: dn)) -> ~ In c' (fd :: dn)).
Proof.
  intros H. destruct (alt_down_spec s g dn fd (alt_reach_inv _ _ _ H)) as (s' & E & _ & K). eauto.
Qed.

Theorem alt_up_lemma s g dn fd : alt_reach s g dn ->
  exists s' r, alt_change s fd true = Some (s', r) /\ (r = 0 <-> In fd dn) /\
    forall a l, g a = Some l -> exists c c', alt_nhop s a = Some c /\ alt_nhop s' a = Some c' /\
      In c' l /\ (hd_error l <> Some fd -> c' = c) /\
      (In fd dn -> hd_error l = Some fd -> c' = fd).
Proof.
  intros H. destruct (alt_up_spec s g dn fd (alt_reach_inv _ _ _ H)) as (s' & r & E & _ & K). eauto.
Qed.
